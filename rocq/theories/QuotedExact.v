(* A quoted scalar is read as it is spelled, and nothing else is read. *)
From Verif Require Import Base ReaderModel Utf8Spec Utf8Lemmas CharSpec Types CursorModel ScanModel ScannerModel CursorProofs ScanProofs ScanQuoted PlanFree FullRun QuotedRun EscapeRun PlainRun RoundSpec DoubleTrip LexSpec GapExact.

(* ---- escapes ---- *)
Lemma escape_short e bs : escape e = Some (inl bs) -> exists x, In (e, x) short_escapes /\ bs = utf8_enc x.
Proof.
  unfold escape. intros H.
  repeat match type of H with
  | (if (e =? ?a) || (e =? ?b) then Some (inl ?v) else _) = _ => destruct ((e =? a) || (e =? b)) eqn:X; [injection H as <-; apply orb_true_iff in X as [X|X]; apply N.eqb_eq in X; subst e; eexists; (split; [unfold short_escapes; cbn [In]; repeat (first [left; reflexivity|right])|reflexivity])|]
  | (if e =? ?a then Some (inl ?v) else _) = _ => destruct (N.eqb_spec e a) as [->|]; [injection H as <-; eexists; split; [unfold short_escapes; cbn [In]; repeat (first [left; reflexivity|right])|reflexivity]|]
  | (if e =? ?a then _ else _) = _ => destruct (e =? a); [discriminate|]
  end. discriminate.
Qed.
Lemma short_escape e x : In (e, x) short_escapes -> escape e = Some (inl (utf8_enc x)).
Proof. unfold short_escapes. cbn [In]. intros H. repeat (destruct H as [[= <- <-]|H]; [reflexivity|]). destruct H. Qed.
Lemma escape_code e k : escape e = Some (inr k) -> In (e, k) code_escapes.
Proof.
  unfold escape. intros H. repeat match type of H with (if ?b then Some (inl _) else _) = _ => destruct b; [discriminate|] end.
  repeat match type of H with
  | (if e =? ?a then Some (inr _) else _) = _ => destruct (N.eqb_spec e a) as [->|]; [injection H as <-; cbn; auto|]
  end. discriminate.
Qed.
Lemma code_escape e k : In (e, k) code_escapes -> escape e = Some (inr k).
Proof. unfold code_escapes. cbn [In]. intros H. repeat (destruct H as [[= <- <-]|H]; [reflexivity|]). destruct H. Qed.
Lemma escape_plain e r : escape e = Some r -> is_break e = false /\ e <> 0 /\ is_ascii e = true.
Proof. intros H. destruct (escape_char _ _ H) as (A & B & C). auto. Qed.
Lemma break_one b : line_break b -> utf8_enc (break_value b) = break_bytes b.
Proof.
  intros [(x & -> & B)| ->]; [|reflexivity]. unfold break_value, break_bytes. cbn [nth].
  destruct (N.eqb_spec x 0x2028) as [->|]; [reflexivity|]. destruct (N.eqb_spec x 0x2029) as [->|]; reflexivity.
Qed.
Lemma break_bytes_app b t : b <> [] -> break_bytes (b ++ t) = break_bytes b.
Proof. destruct b; [contradiction|reflexivity]. Qed.
Lemma line_break_some b : line_break b -> b <> [] /\ is_break (nth 0 b 0) = true /\ is_break (last b 0) = true.
Proof. intros [(x & -> & B)| ->]; split; try discriminate; split; auto. Qed.
Lemma utf8_app a b : utf8 (a ++ b) = utf8 a ++ utf8 b.
Proof. unfold utf8. apply flat_map_app. Qed.
Lemma utf8_one x : utf8 [x] = utf8_enc x.
Proof. cbn. apply app_nil_r. Qed.
Lemma utf8_nil_inv v : utf8 v = [] -> v = [].
Proof.
  destruct v as [|x v]; [reflexivity|]. cbn. intros H. apply app_eq_nil in H as [H _].
  unfold utf8_enc in H. repeat match type of H with (if ?b then _ else _) = _ => destruct b end; discriminate.
Qed.
Lemma folded_utf8 x v : utf8 (folded x v) = if starts_lf (utf8_enc x) then (if nonempty (utf8 v) then utf8 v else [0x20]) else utf8_enc x ++ utf8 v.
Proof.
  unfold LexSpec.folded. destruct (N.eqb_spec x 0xA) as [->|Nx].
  - change (starts_lf (utf8_enc 0xA)) with true. cbv iota. destruct v as [|y v]; [reflexivity|]. destruct (utf8 (y :: v)) eqn:E; [apply utf8_nil_inv in E; discriminate|reflexivity].
  - cbn. replace (starts_lf (utf8_enc x)) with false; [reflexivity|]. unfold starts_lf, utf8_enc. destruct (N.ltb_spec x 0x80); [|destruct (N.ltb_spec x 0x800); [|destruct (N.ltb_spec x 0x10000)]].
    + destruct x as [|p]; [reflexivity|]. do 4 (destruct p as [p|p|]; try reflexivity). contradiction Nx; reflexivity.
    + assert (Y : 0xC0 + x / 64 <> 0xA) by lia. destruct (0xC0 + x / 64) as [|p]; [reflexivity|]. do 4 (destruct p as [p|p|]; try reflexivity). contradiction Y; reflexivity.
    + assert (Y : 0xE0 + x / 4096 <> 0xA) by lia. destruct (0xE0 + x / 4096) as [|p]; [reflexivity|]. do 4 (destruct p as [p|p|]; try reflexivity). contradiction Y; reflexivity.
    + assert (Y : 0xF0 + x / 262144 <> 0xA) by lia. destruct (0xF0 + x / 262144) as [|p]; [reflexivity|]. do 4 (destruct p as [p|p|]; try reflexivity). contradiction Y; reflexivity.
Qed.

(* ---- what is read is spelled ---- *)
Section Read.
Variables (t0 : list N) (m0 : mark) (single : bool).
Notation pos := (pos t0 m0).

Lemma x_scan_hex start k : forall pre v n r m c (Q : N -> cur -> Prop),
  pos n (pre ++ r) m c -> (length pre + k <= n)%nat -> forallb is_hex pre = true ->
  (forall ds r', r = ds ++ r' -> length ds = k -> forallb is_hex ds = true -> Q (fold_left (fun n d => n * 16 + as_hex d) ds v) c) ->
  wp (scan_hex k (length pre) start v) c Q (epos t0 m0 (Some start)).
Proof.
  induction k as [|k IH]; intros pre v n r m c Q H K F HQ; cbn [scan_hex].
  - apply wp_ret. apply (HQ [] r); reflexivity.
  - apply wp_bind. eapply p_peek; [exact H|lia|rewrite app_length; lia| |].
    { rewrite firstn_app, Nat.sub_diag, firstn_all. cbn [firstn]. rewrite app_nil_r. rewrite forallb_forall in *. intros y Y. specialize (F y Y). cls. }
    intros _. rewrite app_nth2, Nat.sub_diag by lia. destruct (is_hex (nth 0 r 0)) eqn:X; [|ss].
    destruct (nth0_cons r) as (x & r' & ->); [intros E0; rewrite E0 in X; discriminate|]. cbn [nth] in *.
    replace (S (length pre)) with (length (pre ++ [x])) by (rewrite app_length; cbn; lia).
    eapply (IH (pre ++ [x]) (v * 16 + as_hex x) n r' m).
    + rewrite <- app_assoc. exact H.
    + rewrite app_length. cbn [length]. lia.
    + rewrite forallb_app, F. cbn. rewrite X. reflexivity.
    + intros ds r2 -> L D. apply (HQ (x :: ds) r2); [reflexivity|cbn; lia|cbn; rewrite X; exact D].
Qed.
Lemma x_scan_escape start s n t m c (Q : list N -> cur -> Prop) :
  pos n (0x5C :: t) m c -> (2 <= n)%nat ->
  (forall e x t' m' c', pos 0 t' m' c' -> adv (0x5C :: t) m t' m' -> (length t' < S (length t))%nat -> t = e ++ t' -> escaped e x -> Q (s ++ utf8_enc x) c') ->
  wp (scan_escape start s) c Q (epos t0 m0 (Some start)).
Proof.
  intros H K HQ. unfold scan_escape. s1.
  eapply p_peek; [exact H|lia|cbn [length]; lia|reflexivity|]. intros _. cbn [nth].
  destruct (escape (nth 0 t 0)) as [[bs|k]|] eqn:X; sx.
  - destruct (escape_char _ _ X) as (Z & B & _). destruct (escape_short _ _ X) as (y & I & ->).
    apply wp_put; [eapply escape_bytes; eauto|]. sx. destruct n as [|[|n]]; try lia.
    eapply p_skip; [exact H|cbn; lia|reflexivity|]. intros ? ? c1 [= <- <-] H1. sx.
    eapply p_skip; [exact H1|exact Z|exact B|]. intros e q c2 -> H2. cbn [nth] in *. sx.
    eapply HQ; [eapply pos_le; [exact H2|lia]| |cbn [length]; lia|change (e :: q) with ([e] ++ q); reflexivity|constructor; exact I].
    apply adv_char; [reflexivity|]. apply adv_one. exact B.
  - destruct (escape_char _ _ X) as (Z & B & _). destruct n as [|[|n]]; try lia.
    eapply p_skip; [exact H|cbn; lia|reflexivity|]. intros ? ? c1 [= <- <-] H1. sx.
    eapply p_skip; [exact H1|exact Z|exact B|]. intros e q c2 -> H2. clear H H1. cbn [nth] in *. sx.
    eapply (x_scan_hex start k [] 0 _ q); [exact H2|cbn [length]; lia|reflexivity|]. intros ds q' -> L F. sx.
    change (fold_left (fun n0 d : N => n0 * 16 + as_hex d) ds 0) with (hex_value ds).
    destruct (((0xD800 <=? hex_value ds) && (hex_value ds <=? 0xDFFF)) || (0x10FFFF <? hex_value ds)) eqn:R; sx.
    apply wp_put; [apply code_bytes_room|]. sx. rewrite code_bytes_enc.
    eapply p_skip_n; [exact H2|lia|rewrite app_length; lia| |].
    { intros z Iz. rewrite <- L, firstn_app, Nat.sub_diag, firstn_all in Iz. cbn [firstn] in Iz. rewrite app_nil_r in Iz. rewrite forallb_forall in F. specialize (F z Iz). split; cls. }
    intros t4 m4 c4 H4 A4 T4 M4. sx. rewrite <- L, skipn_app, Nat.sub_diag, skipn_all in T4. cbn in T4. subst t4.
    eapply (HQ (e :: ds) (hex_value ds)); [eapply pos_le; [exact H4|lia]| | |reflexivity|].
    + apply adv_char; [reflexivity|]. apply adv_char; [exact B|exact A4].
    + cbn [length]. rewrite app_length. lia.
    + constructor; [rewrite L; apply escape_code; exact X|apply Forall_forall; rewrite forallb_forall in F; exact F|]. unfold scalar_value. lia.
Qed.

(* [good v r]: the text up to [r] spells [v] *)
Variable good : list N -> list N -> Prop.
Definition ahead (v t : list N) : Prop := forall u v' r, t = u ++ quote single :: r -> spelled single u v' -> good (v ++ v') r.
Lemma ahead_char v x t : is_blankz x = false -> x <> quote single -> (single = false -> x <> 0x5C) -> ahead v (x :: t) -> ahead (v ++ [x]) t.
Proof. intros A B C K u v' r -> S. rewrite <- app_assoc. apply (K (x :: u) (x :: v') r); [reflexivity|]. constructor; assumption. Qed.
Lemma ahead_pair v t : single = true -> ahead v (0x27 :: 0x27 :: t) -> ahead (v ++ [0x27]) t.
Proof. intros A K u v' r -> S. rewrite <- app_assoc. apply (K (0x27 :: 0x27 :: u) (0x27 :: v') r); [reflexivity|]. apply spelled_pair; assumption. Qed.
Lemma ahead_escape v e x t : single = false -> escaped e x -> ahead v (0x5C :: e ++ t) -> ahead (v ++ [x]) t.
Proof. intros A B K u v' r -> S. rewrite <- app_assoc. apply (K (0x5C :: e ++ u) (x :: v') r); [cbn; rewrite app_assoc; reflexivity|]. apply spelled_escape; assumption. Qed.

Lemma x_scan_quoted_word start s n t m c (Q : list N * bool -> cur -> Prop) :
  pos n t m c -> (2 <= n)%nat -> (exists v, s = utf8 v /\ ahead v t) ->
  (forall v (lb : bool) t' m' c', pos 0 t' m' c' -> adv t m t' m' ->
     (if lb then (length t' < length t)%nat /\ m_column m' = 0 /\ single = false /\ exists b, line_break b /\ (b = [0xD] -> nth 0 t' 0 <> 0xA) /\ ahead v (0x5C :: b ++ t')
      else (is_blankz (nth 0 t' 0) = true \/ nth 0 t' 0 = quote single /\ (single = true -> nth 1 t' 0 <> 0x27)) /\ ahead v t') -> Q (utf8 v, lb) c') ->
  wp (scan_quoted_word single start s) c Q (epos t0 m0 (Some start)).
Proof.
  intros H K (v & -> & K0) HQ. unfold scan_quoted_word. cbv zeta.
  apply (p_loop t0 m0 (Some start) (fun (a : list N) t' m' => adv t m t' m' /\ exists v, a = utf8 v /\ ahead v t') 2%nat _ _ t m).
  { eapply pos_le; [exact H|lia]. }
  { split; [constructor|]. exists v. auto. }
  clear H c v K0. intros s1 t1 m1 c H (A & v & -> & G). assert (L1 := adv_len _ _ _ _ A). sx.
  destruct (is_blankz (nth 0 t1 0)) eqn:Bz.
  { sx. eapply (HQ _ false); [eapply pos_le; [exact H|lia]|exact A|split; [left; exact Bz|exact G]]. }
  assert (Z : nth 0 t1 0 <> 0) by cls. assert (B : is_break (nth 0 t1 0) = false) by cls.
  destruct (nth0_cons _ Z) as [x [r ->]]. cbn [nth] in *.
  s1.
  eapply (wp_mono _ _ (fun b c' => c' = c /\ b = (single && (x =? 0x27) && (nth 0 r 0 =? 0x27)))).
  { apply wp_andc, wp_ret. destruct single; cbn [andb]; [|split; reflexivity]. s1. eapply p_check0; [exact H|lia|]. intros _. cbn [nth]. unfold eqc at 1.
    destruct (N.eqb_spec x 0x27) as [->|]; [|split; reflexivity].
    eapply p_check1; [exact H|lia|reflexivity|]. split; reflexivity. }
  2:{ intros ? W. exact W. }
  intros pr c1 [-> ->]. destruct (single && (x =? 0x27) && (nth 0 r 0 =? 0x27)) eqn:Pr.
  { apply andb_true_iff in Pr as [Pr P3]. apply andb_true_iff in Pr as [P1 P2]. apply N.eqb_eq in P2, P3. subst x.
    sx. apply wp_put; [cbn; unfold room; lia|]. sx.
    eapply p_skip; [exact H|exact Z|exact B|]. intros ? ? c1 [= <- <-] H1. sx.
    eapply p_skip; [exact H1|rewrite P3; discriminate|rewrite P3; reflexivity|]. intros y q c2 -> H2. clear H H1. cbn [nth] in P3. subst y. sx.
    exists q, (next_column 1 (next_column 1 m1)). split; [exact H2|]. split; [|cbn [length]; lia]. split.
    - eapply adv_trans; [exact A|]. apply adv_char; [exact B|]. apply adv_one. reflexivity.
    - exists (v ++ [0x27]). split; [rewrite utf8_app; reflexivity|]. apply ahead_pair; assumption. }
  sx. cbn [nth]. unfold eqc at 1. destruct (N.eqb_spec x (if single then 0x27 else 0x22)) as [Eq|Nq].
  { sx. eapply (HQ _ false); [eapply pos_le; [exact H|lia]|exact A|split; [right; split; [exact Eq|]|exact G]].
    intros Sg N1. cbn [nth] in N1. rewrite Sg, N1, Eq, Sg in Pr. discriminate Pr. }
  s1.
  eapply (wp_mono _ _ (fun b c' => c' = c /\ b = (negb single && (x =? 0x5C) && is_break (nth 0 r 0)))).
  { apply wp_andc, wp_ret. destruct single; cbn [andb negb]; [split; reflexivity|]. s1. eapply p_check0; [exact H|lia|]. intros _. cbn [nth]. unfold eqc at 1.
    destruct (N.eqb_spec x 0x5C) as [->|]; [|split; reflexivity].
    eapply p_check1; [exact H|lia|reflexivity|]. split; reflexivity. }
  2:{ intros ? W. exact W. }
  intros pr c1 [-> ->]. destruct (negb single && (x =? 0x5C) && is_break (nth 0 r 0)) eqn:Eb.
  { apply andb_true_iff in Eb as [Eb P3]. apply andb_true_iff in Eb as [P1 P2]. apply N.eqb_eq in P2. subst x.
    sx. eapply p_skip; [exact H|exact Z|exact B|]. intros ? ? c1 [= <- <-] H1. sx.
    eapply p_skip_line; [exact H1|lia|exact P3|].
    intros t2 m2 c2 S2 H2. destruct (line_step_break _ _ _ _ S2) as (b & E2 & B2 & N2 & C2). sx. eapply (HQ _ true); [eapply pos_le; [exact H2|lia]| |].
    - eapply adv_trans; [exact A|]. apply adv_char; [exact B|]. apply line_step_adv. exact S2.
    - split; [apply line_step_len in S2; cbn [length] in L1; lia|]. split; [exact C2|]. split; [destruct single; [discriminate|reflexivity]|].
      exists b. split; [exact B2|]. split; [exact N2|]. rewrite <- E2. exact G. }
  sx. cbn [nth]. unfold eqc at 1. destruct (negb single && (x =? 0x5C)) eqn:Es.
  { apply andb_true_iff in Es as [P1 P2]. apply N.eqb_eq in P2. subst x. sx. eapply x_scan_escape; [exact H|lia|]. intros e x t2 m2 c2 H2 A2 L2 E2 Ex. sx.
    exists t2, m2. split; [exact H2|]. split; [|exact L2]. split; [eapply adv_trans; eauto|]. exists (v ++ [x]). split; [rewrite utf8_app, utf8_one; reflexivity|].
    apply (ahead_escape v e x t2); [destruct single; [discriminate|reflexivity]|exact Ex|rewrite <- E2; exact G]. }
  sx. eapply p_read; [exact H|exact Z|exact B|]. intros ? ? c1 [= <- <-] H1. clear H. sx.
  exists r, (next_column 1 m1). split; [eapply pos_le; [exact H1|lia]|]. split; [|cbn [length]; lia]. split.
  { eapply adv_trans; [exact A|]. apply adv_one. exact B. }
  exists (v ++ [x]). split; [rewrite utf8_app, utf8_one; reflexivity|]. apply ahead_char; [exact Bz|exact Nq| |exact G]. intros Es' ->. rewrite Es' in Es. discriminate.
Qed.

(* the state in white space, after a value [v] *)
Definition in_blanks (v : list N) (st : blanks) (t : list N) (m : mark) : Prop :=
  let '(lb, ws, leading, trailing) := st in
  if lb then exists b s vs, line_break b /\ lines any_blank b s vs (m_column m) /\ trailing = utf8 vs /\ (last (b ++ s) 0 = 0xD -> nth 0 t 0 <> 0xA) /\
    ((exists w, Forall (fun x => is_blank x = true) w /\ leading = utf8 [break_value b] /\ ahead v (w ++ b ++ s ++ t)) \/
     (single = false /\ leading = [] /\ ahead v (0x5C :: b ++ s ++ t)))
  else exists w, Forall (fun x => is_blank x = true) w /\ ws = utf8 w /\ leading = [] /\ trailing = [] /\ ahead v (w ++ t).
Lemma last_cr b t : line_break b -> (b = [0xD] -> nth 0 t 0 <> 0xA) -> last b 0 = 0xD -> nth 0 t 0 <> 0xA.
Proof. intros [(x & -> & _)| ->] H; cbn; [intros ->; apply H; reflexivity|discriminate]. Qed.

Lemma x_scan_quoted_blanks st v b0 n t m c (Q : blanks -> cur -> Prop) :
  pos n t m c -> (1 <= n)%nat -> in_blanks v b0 t m ->
  (forall b t' m' c', pos 1 t' m' c' -> adv t m t' m' -> in_blanks v b t' m' ->
     is_blank (nth 0 t' 0) = false -> is_break (nth 0 t' 0) = false -> Q b c') ->
  wp (scan_quoted_blanks b0) c Q (epos t0 m0 st).
Proof.
  intros H K J0 HQ. unfold scan_quoted_blanks.
  apply (p_loop t0 m0 st (fun (a : blanks) t' m' => adv t m t' m' /\ in_blanks v a t' m') 1%nat _ _ t m).
  { eapply pos_le; [exact H|lia]. }
  { split; [constructor|exact J0]. }
  clear H c J0. intros [[[lb ws] ld] tr] t1 m1 c H (A & J). sx.
  destruct (is_blank (nth 0 t1 0)) eqn:Bl.
  { assert (A' : forall x r, t1 = x :: r -> adv t m r (next_column 1 m1)).
    { intros x r ->. eapply adv_trans; [exact A|]. apply adv_one. cbn [nth] in Bl. cls. }
    destruct lb; sx.
    - eapply p_skip; [exact H|cls|cls|]. intros x r c1 T1 H1. clear H. sx.
      exists r, (next_column 1 m1). split; [exact H1|]. split; [|subst t1; cbn [length]; lia]. split; [eauto|]. subst t1. cbn [nth] in Bl.
      destruct J as (b & s & vs & B & Ls & -> & C & D). exists b, (s ++ [x]), vs. split; [exact B|]. split.
      { cbn [next_column m_column]. apply lines_blank; [exact Ls|exact Bl]. }
      split; [reflexivity|]. split; [rewrite app_assoc, last_last; intros ->; discriminate|]. rewrite <- app_assoc. exact D.
    - eapply p_read; [exact H|cls|cls|]. intros x r c1 T1 H1. clear H. sx.
      exists r, (next_column 1 m1). split; [exact H1|]. split; [|subst t1; cbn [length]; lia]. split; [eauto|]. subst t1. cbn [nth] in Bl.
      destruct J as (w & F & -> & -> & -> & G). exists (w ++ [x]). split; [apply Forall_app; auto|]. split; [rewrite utf8_app, utf8_one; reflexivity|]. split; [reflexivity|]. split; [reflexivity|].
      rewrite <- app_assoc. exact G. }
  destruct (is_break (nth 0 t1 0)) eqn:Bk; sx.
  - destruct lb; sx; (eapply p_read_line; [exact H|lia|exact Bk|]); intros t2 m2 c2 S2 H2; clear H; sx;
      (exists t2, m2; split; [eapply pos_le; [exact H2|lia]|]; split; [split; [eapply adv_trans; [exact A|apply line_step_adv; exact S2]|]|eapply line_step_len; eauto]);
      destruct (line_step_break _ _ _ _ S2) as (b2 & E2 & B2 & N2 & C2); destruct (line_break_some _ B2) as (Nb & Hb & _); cbn [in_blanks]; rewrite C2.
    + destruct J as (b & s & vs & B & Ls & -> & C & D). exists b, (s ++ b2), (vs ++ [break_value b2]). split; [exact B|]. split.
      { eapply lines_break; [exact Ls|exact B2|]. intros X ->. apply (C X). rewrite E2. reflexivity. }
      split; [rewrite utf8_app, utf8_one, (break_one b2 B2), E2, break_bytes_app by exact Nb; reflexivity|]. split.
      { intros X. apply (last_cr b2 t2 B2 N2). destruct (exists_last Nb) as (u & y & ->). rewrite !app_assoc, last_last in X. rewrite last_last. exact X. }
      rewrite <- !app_assoc. rewrite E2 in D. exact D.
    + destruct J as (w & F & -> & -> & -> & G). exists b2, [], []. split; [exact B2|]. split; [constructor|]. split; [reflexivity|]. split.
      { rewrite app_nil_r. apply (last_cr b2 t2 B2 N2). }
      left. exists w. split; [exact F|]. split; [rewrite utf8_one, (break_one b2 B2), E2, break_bytes_app by exact Nb; reflexivity|]. rewrite E2 in G. exact G.
  - eapply HQ; eauto.
Qed.

Lemma marker_seen u r m : marker u -> m_column m = 0 -> at_document_indicator (u ++ quote single :: r) m = true.
Proof.
  intros (x & y & u' & X & -> & Y) C. unfold at_document_indicator, is_indicator. rewrite C. cbn [app is_triple nth]. rewrite Y.
  destruct X as [-> | ->]; reflexivity.
Qed.
Lemma white_head u r : is_blank (nth 0 (u ++ quote single :: r) 0) = false -> is_break (nth 0 (u ++ quote single :: r) 0) = false -> not_white u.
Proof. destruct u as [|x u]; [intros; split; reflexivity|]. cbn. intros; split; assumption. Qed.
(* the value after white space *)
Definition more (b : blanks) (v : list N) : list N :=
  let '(lb, ws, ld, tr) := b in
  if lb then if starts_lf ld then if nonempty tr then utf8 v ++ tr else utf8 v ++ [0x20] else utf8 v ++ ld ++ tr else utf8 v ++ ws.
Lemma more_utf8 v b t m : in_blanks v b t m -> exists v', more b v = utf8 v'.
Proof.
  destruct b as [[[lb ws] ld] tr]. destruct lb.
  - intros (b & s & vs & _ & _ & -> & _ & [(w & _ & -> & _)|(_ & -> & _)]).
    + exists (v ++ LexSpec.folded (break_value b) vs). rewrite utf8_app, folded_utf8. cbn [more]. rewrite utf8_one. destruct (starts_lf (utf8_enc (break_value b))); [|reflexivity]. destruct (nonempty (utf8 vs)); reflexivity.
    + exists (v ++ vs). rewrite utf8_app. reflexivity.
  - intros (w & _ & -> & _). exists (v ++ w). rewrite utf8_app. reflexivity.
Qed.
Lemma blanks_over v b t m : in_blanks v b t m -> is_blank (nth 0 t 0) = false -> is_break (nth 0 t 0) = false -> at_document_indicator t m = false ->
  exists v', more b v = utf8 v' /\ ahead v' t.
Proof.
  destruct b as [[[lb ws] ld] tr]. intros J N1 N2 D. destruct lb.
  - destruct J as (b & s & vs & B & Ls & -> & C & [(w & F & -> & G)|(Sg & -> & G)]).
    + exists (v ++ LexSpec.folded (break_value b) vs). split.
      { rewrite utf8_app, folded_utf8. cbn [more]. rewrite utf8_one. destruct (starts_lf (utf8_enc (break_value b))); [|reflexivity]. destruct (nonempty (utf8 vs)); reflexivity. }
      intros u v' r -> S. rewrite <- app_assoc. apply (G (w ++ b ++ s ++ u)); [rewrite <- !app_assoc; reflexivity|].
      eapply spelled_fold; [exact F|exact B|exact Ls|eapply white_head; eauto| |exact S]. intros C0 M. rewrite (marker_seen _ _ _ M C0) in D; discriminate D.
    + exists (v ++ vs). split; [rewrite utf8_app; reflexivity|].
      intros u v' r -> S. rewrite <- app_assoc. apply (G (0x5C :: b ++ s ++ u)); [cbn; rewrite <- !app_assoc; reflexivity|].
      eapply spelled_join; [exact Sg|exact B|exact Ls|eapply white_head; eauto| |exact S]. intros C0 M. rewrite (marker_seen _ _ _ M C0) in D; discriminate D.
  - destruct J as (w & F & -> & -> & -> & G). exists (v ++ w). split; [rewrite utf8_app; reflexivity|].
    destruct w as [|x w]; [rewrite app_nil_r; exact G|]. intros u v' r -> S. rewrite <- app_assoc. apply (G ((x :: w) ++ u)); [rewrite <- app_assoc; reflexivity|].
    apply spelled_blanks; [discriminate|exact F|eapply white_head; eauto|exact S].
Qed.
End Read.

Lemma x_scan_flow_scalar (single : bool) t m c : hold 1 (quote single :: t) m c ->
  wp (scan_flow_scalar single) c (fun tk c' => exists u v r e, t = u ++ quote single :: r /\ spelled single u v /\ (single = true -> nth 0 r 0 <> 0x27) /\ c_text c' = r /\
     tk = mkToken (TScalar (utf8 v) (if single then SingleQuoted else DoubleQuoted)) m e false /\ c_mark c' = e) (epos (quote single :: t) m (Some m)).
Proof.
  intros H0. pose proof (pos_start _ _ _ _ H0) as H. clear H0. unfold scan_flow_scalar. sx.
  eapply p_skip; [exact H|destruct single; discriminate|destruct single; reflexivity|]. clear H. intros ? ? c1 [= <- <-] H1. sx.
  set (good := fun v r => exists u, t = u ++ quote single :: r /\ spelled single u v).
  apply (p_loop (quote single :: t) m (Some m) (fun (a : list N) t' m' => (length t' < S (length t))%nat /\ exists v, a = utf8 v /\ (at_document_indicator t' m' = false -> ahead single good v t')) O _ _ t (next_column 1 m)).
  { eapply pos_le; [exact H1|lia]. }
  { split; [lia|]. exists []. split; [reflexivity|]. intros _ u v' r E S. exists u. auto. }
  clear H1 c1. intros s t1 m1 c1 H1 (L1 & v & -> & G). sx.
  eapply p_document_indicator; [exact H1|lia|].
  destruct (at_document_indicator t1 m1); sx. specialize (G eq_refl).
  destruct (is_z (nth 0 t1 0)) eqn:Z1; sx.
  eapply (x_scan_quoted_word _ _ single good); [exact H1|lia|exists v; auto|]. clear H1 G v. intros v lb t2 m2 c2 H2 A2 W2. assert (L2 := adv_len _ _ _ _ A2). sx.
  unfold eqc at 1. destruct (N.eqb_spec (nth 0 t2 0) (if single then 0x27 else 0x22)) as [Eq|Nq].
  { sx. assert (Hq : single = true -> nth 1 t2 0 <> 0x27).
    { destruct lb; [destruct W2 as (_ & _ & Sg & _); congruence|]. destruct W2 as [[W2|[_ W2]] _]; [|exact W2]. rewrite Eq in W2. destruct single; discriminate W2. }
    assert (Gq : exists q, t2 = quote single :: q /\ good v q).
    { destruct (nth0_cons t2) as (y & q & ->); [rewrite Eq; destruct single; discriminate|]. cbn [nth] in Eq. exists q. split; [rewrite Eq; reflexivity|].
      replace v with (v ++ []) by apply app_nil_r. destruct lb.
      - destruct W2 as (_ & _ & Sg & b & B & N & G). apply (G (0x5C :: b)); [cbn; rewrite Eq; reflexivity|].
        pose proof (spelled_join single b [] [] 0 [] [] Sg B (lines_start _ b)) as X. rewrite !app_nil_r in X. apply X; [split; reflexivity| |constructor]. intros _ (x & z & w & _ & E & _). discriminate E.
      - destruct W2 as (_ & G). apply (G []); [rewrite Eq; reflexivity|constructor]. }
    destruct Gq as (q & -> & u & Eu & Su). eapply p_skip; [exact H2|destruct single; discriminate|destruct single; reflexivity|]. intros ? ? c3 [= <- <-] H3. clear H2. sx.
    exists u, v, q. eexists. split; [exact Eu|]. split; [exact Su|]. split; [exact Hq|]. split; [apply (pos_text _ _ _ _ _ _ H3)|]. split; [reflexivity|]. apply H3. }
  sx.
  eapply (x_scan_quoted_blanks _ _ single good _ v); [exact H2|lia| |].
  { destruct lb.
    - destruct W2 as (_ & C & Sg & b & B & N & G). exists b, [], []. split; [exact B|]. rewrite C. split; [constructor|]. split; [reflexivity|]. rewrite app_nil_r. split; [apply last_cr; assumption|]. right. auto.
    - destruct W2 as (_ & G). exists []. auto. }
  clear H2. intros [[[lb3 ws] ld] tr] t3 m3 c3 H3 A3 J3 N3 N3'. assert (L3 := adv_len _ _ _ _ A3). sx.
  eapply (wp_mono _ _ (fun (s4 : list N) c' => c' = c3 /\ s4 = more (lb3, ws, ld, tr) v)); [|intros s4 c4 [-> ->]|intros ? W; exact W].
  { destruct lb3; [|split; reflexivity]. unfold fold_breaks, more. destruct (starts_lf ld); [|split; reflexivity]. destruct (nonempty tr); [split; reflexivity|]. split; reflexivity. }
  sx. exists t3, m3. split; [eapply pos_le; [exact H3|lia]|]. split.
  { split; [lia|]. destruct (at_document_indicator t3 m3) eqn:D.
    - destruct (more_utf8 single good v (lb3, ws, ld, tr) t3 m3 J3) as (v' & E). exists v'. split; [exact E|discriminate].
    - destruct (blanks_over single good v (lb3, ws, ld, tr) t3 m3 J3 N3 N3' D) as (v' & E & G). exists v'. auto. }
  destruct lb; [lia|]. destruct W2 as [[W2|[W2 _]] _]; [|contradiction Nq; exact W2].
  destruct (Nat.eq_dec (length t3) (length t1)) as [Eq|]; [|lia]. exfalso.
  assert (forall ta ma tb mb, adv ta ma tb mb -> length tb = length ta -> ta = tb) as SameLen.
  { clear. intros ta ma tb mb A E. destruct A; auto; apply adv_len in A; cbn [length] in E; lia. }
  assert (t1 = t2) by (eapply SameLen; [exact A2|lia]). assert (t2 = t3) by (eapply SameLen; [exact A3|lia]). subst t2 t3.
  cls.
Qed.

(* ---- what is spelled is read ---- *)
Lemma a_escaped' sg start L acc bs x t t1 m m1 v t' : sg = false -> is_break x = false -> (length t1 < 2 + length t)%nat ->
  scan_escape start acc (fc (0x5C :: x :: t) m) = COk (acc ++ bs) (fc t1 m1) ->
  after sg start L (acc ++ bs) t1 m1 v t' -> after sg start L acc (0x5C :: x :: t) m v t'.
Proof. intros ->. apply a_escaped. Qed.
Lemma lines_nil ok b v f : lines ok b [] v f -> v = [].
Proof.
  intros L. remember [] as s eqn:E. destruct L as [|s v f x H X|s v f b' H B C]; [reflexivity| |]; [destruct s; discriminate|].
  destruct (line_break_some _ B) as (N & _). destruct s, b'; try discriminate. contradiction.
Qed.
Lemma spelled_nil single v : spelled single [] v -> v = [].
Proof.
  intros S. remember [] as z eqn:E. destruct S as [|x t1 v X1 X2 X3 S|t1 v Sg' S|e x t1 v Sg' Ex S|w t1 v N F W S|w b s bs f t1 v F B Ls W Mk S|b s bs f t1 v Sg' B Ls W Mk S]; try discriminate; [reflexivity| |].
  - destruct w; [contradiction|discriminate].
  - destruct (line_break_some _ B) as (N & _). destruct w, b; try discriminate. contradiction.
Qed.
Lemma spelled_start single t v : spelled single (0 :: t) v -> False.
Proof.
  intros S. remember (0 :: t) as z eqn:E. destruct S as [|x t1 v X1 X2 X3 S|t1 v Sg' S|e x t1 v Sg' Ex S|w t1 v N F W S|w b s bs f t1 v F B Ls W Mk S|b s bs f t1 v Sg' B Ls W Mk S]; try discriminate.
  - injection E as -> _. discriminate X1.
  - destruct w as [|x w]; [contradiction|]. injection E as -> _. apply Forall_inv in F. discriminate F.
  - destruct (line_break_some _ B) as (N & H & _). destruct w as [|x w]; [|injection E as -> _; apply Forall_inv in F; discriminate F]. destruct b; [contradiction|]. injection E as -> _. discriminate H.
Qed.
Section Spelled.
Variables (single : bool) (start : mark) (rest : list N).
Hypothesis Hr : single = true -> nth 0 rest 0 <> 0x27.
Notation after := (after single start).
Notation afterb := (afterb single start).
Notation Q := (quote single).

Lemma quote_is : (if single then 0x27 else 0x22) = Q.
Proof. reflexivity. Qed.
(* from white space to the next word, at the beginning of a line too *)
Lemma b_word' L acc b t m v t' : (length t < L)%nat -> is_blankz (nth 0 t 0) = false -> at_document_indicator t m = false ->
  after (length t) (QuotedRun.folded acc b) t m v t' -> afterb L acc b t m v t'.
Proof.
  intros HL Z C K. destruct (zb _ Z) as (Z1 & Z2 & Z3). destruct b as [[[lb ws] l] tr].
  assert (E : scan_quoted_blanks (lb, ws, l, tr) (fc t m) = COk (lb, ws, l, tr) (fc t m)).
  { apply loop_end. run. rewrite Z2, Z3. reflexivity. }
  unfold QuotedRun.afterb, bind. rewrite E.
  assert (F : q_fold acc (lb, ws, l, tr) (fc t m) = COk (inl (QuotedRun.folded acc (lb, ws, l, tr))) (fc t m)).
  { unfold q_fold, QuotedRun.folded, fold_breaks. destruct lb; [|reflexivity]. destruct (starts_lf l); [|reflexivity]. destruct (nonempty tr); [reflexivity|].
    rewrite r_put by (unfold room; cbn; lia). reflexivity. }
  rewrite F. cbn [ends c_text fc]. split; [exact HL|].
  set (acc1 := QuotedRun.folded acc (lb, ws, l, tr)) in *.
  assert (G : q_body single start acc1 (fc t m) = bind (scan_quoted_word single start acc1) (q_rest single) (fc t m)).
  { unfold q_body. run. rewrite r_document, C. run. rewrite Z1. run. reflexivity. }
  unfold QuotedRun.after in K. rewrite <- G in K. destruct (q_body single start acc1 (fc t m)) as [[s1|s1] c1|e| |] eqn:X; try contradiction; cbn [ends] in K.
  - destruct K as [K1 (m1 & K2)]. exists m1. exact (loop_go _ _ _ _ _ _ _ X K1 K2).
  - destruct K as [-> [m1 ->]]. exists m1. exact (loop_end _ _ _ _ _ X).
Qed.
Lemma no_indicator u m : (m_column m = 0 -> ~ marker u) -> at_document_indicator (u ++ Q :: rest) m = false.
Proof.
  intros H. unfold at_document_indicator. destruct (N.eqb_spec (m_column m) 0) as [C|]; [|reflexivity]. specialize (H C). cbn [andb].
  assert (K : forall k, k = 0x2D \/ k = 0x2E -> is_indicator k (u ++ Q :: rest) = false).
  { intros k Hk. unfold is_indicator. destruct (is_triple k (u ++ Q :: rest)) eqn:T; [|reflexivity].
    assert (Qk : Q <> k) by (unfold quote; destruct single, Hk; subst; discriminate).
    destruct u as [|a [|b [|d u]]]; cbn [app is_triple] in T.
    - destruct rest as [|y [|z r]]; try discriminate. destruct (N.eqb_spec Q k); [contradiction|discriminate].
    - destruct rest as [|y r]; try discriminate. destruct (N.eqb_spec Q k); [contradiction|]. rewrite andb_false_r in T. discriminate.
    - destruct (N.eqb_spec Q k); [contradiction|]. rewrite andb_false_r in T. discriminate.
    - apply andb_true_iff in T as [T T3]. apply andb_true_iff in T as [T1 T2]. apply N.eqb_eq in T1, T2, T3. subst. cbn [andb app nth].
      destruct u as [|y u]; [cbn; unfold quote; destruct single; reflexivity|]. cbn [app nth]. destruct (is_blankz y) eqn:Y; [|reflexivity].
      exfalso. apply H. exists k, y, u. auto. }
  rewrite !K by auto. reflexivity.
Qed.
Lemma spelled_head u v : spelled single u v -> not_white u -> is_blankz (nth 0 (u ++ Q :: rest) 0) = false.
Proof.
  intros S [W1 W2]. destruct S as [|x t v X _ _ _|t v -> _|e x t v -> _ _|w t v N F _ _|w b s bs f t v F B _ _ _ _|b s bs f t v -> _ _ _ _ _]; cbn [app nth] in *.
  - unfold quote. destruct single; reflexivity.
  - exact X.
  - reflexivity.
  - reflexivity.
  - destruct w as [|x w]; [contradiction|]. cbn [app nth] in *. inversion F; subst. congruence.
  - destruct w as [|x w]; cbn [app nth] in *; [|inversion F; subst; congruence]. destruct (line_break_some _ B) as (N & H & _). destruct b; [contradiction|]. cbn [app nth] in *. congruence.
  - reflexivity.
Qed.
Lemma blanks_read L acc w : forall ws t m v t', Forall (fun x => is_blank x = true) w ->
  (forall m', m_column m' = m_column m + nlen w -> afterb L acc (false, ws ++ utf8 w, [], []) t m' v t') -> afterb L acc (false, ws, [], []) (w ++ t) m v t'.
Proof.
  induction w as [|x w IH]; intros ws t m v t' F K.
  - cbn [app] in *. specialize (K m). rewrite app_nil_r in K. apply K. cbn. lia.
  - inversion F; subst. cbn [app]. apply b_blank; [assumption|]. apply IH; [assumption|]. intros m' H. rewrite <- app_assoc. apply K. cbn [next_column m_column] in H. rewrite nlen_cons. lia.
Qed.
Lemma line_text_of b t : line_break b -> (last b 0 = 0xD -> nth 0 t 0 <> 0xA) -> line_text b (utf8_enc (break_value b)) t.
Proof.
  intros B H. rewrite (break_one b B). destruct B as [(x & -> & X)| ->]; [|right; right; auto]. cbn [last] in H.
  destruct (N.eq_dec x 0xD) as [->|N]; [right; left; auto|]. left. exists x. auto.
Qed.
Lemma last_app_ne (a b : list N) d : b <> [] -> last (a ++ b) d = last b d.
Proof. intros H. destruct (exists_last H) as (u & y & ->). rewrite app_assoc, !last_last. reflexivity. Qed.
(* the lines behind a break *)
Lemma lines_read L acc ws l tr b s vs first : lines any_blank b s vs first -> forall t m v t', m_column m = 0 -> (last (b ++ s) 0 = 0xD -> nth 0 t 0 <> 0xA) ->
  (forall m', m_column m' = first -> afterb L acc (true, ws, l, tr ++ utf8 vs) t m' v t') ->
  afterb L acc (true, ws, l, tr) (s ++ t) m v t'.
Proof.
  induction 1 as [|s vs f x H IH X|s vs f b' H IH B C]; intros t m v t' M N K.
  - cbn [app]. specialize (K m M). rewrite app_nil_r in K. exact K.
  - rewrite <- app_assoc. apply IH; [exact M| |].
    { intros _. cbn. intros ->. discriminate. }
    intros m' M'. apply b_skip; [exact X|]. apply K. cbn. rewrite M'. reflexivity.
  - destruct (line_break_some b' B) as (Nb & _ & _). rewrite <- app_assoc. apply IH; [exact M| |].
    { intros Y. destruct B as [(x & -> & Bx)| ->]; [|discriminate]. cbn. intros ->. apply (C Y). reflexivity. }
    intros m' _. apply (b_more_break _ _ _ _ _ _ _ b' (utf8_enc (break_value b'))); [apply line_text_of; [exact B|intros Y; apply N; rewrite app_assoc, last_app_ne by exact Nb; exact Y]|].
    intros m2 M2. rewrite <- app_assoc. specialize (K m2 M2). rewrite utf8_app, utf8_one in K. exact K.
Qed.
Lemma join_word acc b t m : single = false -> line_break b -> (last b 0 = 0xD -> nth 0 t 0 <> 0xA) ->
  exists m', m_column m' = 0 /\ scan_quoted_word single start acc (fc (0x5C :: b ++ t) m) = COk (acc, true) (fc t m').
Proof.
  intros Sg B H.
  assert (S : exists m', m_column m' = 0 /\ skip_line (fc (b ++ t) (next_column 1 m)) = COk tt (fc t m')).
  { destruct B as [(x & -> & X)| ->].
    - exists (next_line 1 (next_column 1 m)). split; [reflexivity|]. cbn [app]. unfold skip_line. unfold is_crlf. rewrite r_and, r_check0. cbn [nth]. unfold eqc at 1.
      destruct (N.eqb_spec x 0xD) as [->|].
      + rewrite (r_check 1); [|cbn; lia|reflexivity]. cbn [nth]. unfold eqc. destruct (N.eqb_spec (nth 0 t 0) 0xA) as [E|]; [exfalso; exact (H eq_refl E)|]. run. reflexivity.
      + run. cbn [nth]. rewrite X. reflexivity.
    - exists (next_line 2 (next_column 1 m)). split; reflexivity. }
  destruct S as (m' & M' & S). exists m'. split; [exact M'|].
  assert (Hb : is_break (nth 0 (b ++ t) 0) = true) by (destruct (line_break_some b B) as (Nb & X & _); destruct b; [contradiction|exact X]).
  apply loop_end. run. cbn [nth]. change (is_blankz 0x5C) with false. run. rewrite Sg. run. cbn [nth]. change (eqc 0x22 0x5C) with false. run. cbn [negb]. run. cbn [nth]. change (eqc 0x5C 0x5C) with true. cbv iota.
  rewrite (r_check 1); [|cbn; lia|reflexivity]. cbn [nth]. rewrite Hb. cbv iota. run. unfold bind. rewrite S. reflexivity.
Qed.
Lemma a_join L acc b t m v t' : single = false -> line_break b -> (last b 0 = 0xD -> nth 0 t 0 <> 0xA) -> nth 0 t 0 <> Q ->
  (forall m', m_column m' = 0 -> afterb L acc (true, [], [], []) t m' v t') -> after L acc (0x5C :: b ++ t) m v t'.
Proof.
  intros Sg B H Nq K. destruct (join_word acc b t m Sg B H) as (m' & M' & E). specialize (K m' M').
  unfold QuotedRun.after, bind. rewrite E. unfold q_rest. run. unfold eqc. rewrite quote_is. destruct (N.eqb_spec (nth 0 t 0) Q); [contradiction|]. run. exact K.
Qed.
Lemma a_join_end L acc b m : single = false -> line_break b -> after L acc (0x5C :: b ++ Q :: rest) m acc (Q :: rest).
Proof.
  intros Sg B. destruct (join_word acc b (Q :: rest) m Sg B) as (m' & M' & E); [cbn [nth]; unfold quote; destruct single; discriminate|].
  unfold QuotedRun.after, bind. rewrite E. unfold q_rest. run. unfold eqc. rewrite quote_is. cbn [nth]. rewrite N.eqb_refl. cbn. eauto.
Qed.
Lemma lines_first b s v f t : lines any_blank b s v f -> last b 0 = 0xD -> nth 0 t 0 <> 0xA -> nth 0 (s ++ t) 0 <> 0xA.
Proof.
  intros Ls E T. destruct s as [|y s]; [exact T|]. cbn [app nth].
  remember (y :: s) as z eqn:Ez. revert y s Ez. induction Ls as [|z v f x H IH X|z v f b' H IH B C]; intros y s Ez.
  - discriminate.
  - destruct z as [|a z]; cbn [app] in Ez; injection Ez as <- <-; [intros ->; discriminate|]. eapply IH; reflexivity.
  - destruct z as [|a z]; cbn [app] in Ez; [|injection Ez as <- <-; eapply IH; reflexivity]. rewrite app_nil_r in C.
    destruct B as [(x & -> & Bx)| ->]; injection Ez as <- <-; [|discriminate]. intros ->. apply (C E). reflexivity.
Qed.
Lemma escaped_read acc e x t m : escaped e x -> exists y r m', e = y :: r /\ is_break y = false /\ scan_escape start acc (fc (0x5C :: e ++ t) m) = COk (acc ++ utf8_enc x) (fc t m').
Proof.
  intros [e' x' I|e' ds I F S].
  - pose proof (short_escape _ _ I) as E. destruct (escape_plain _ _ E) as (B & _). exists e', [], (next_column 1 (next_column 1 m)). split; [reflexivity|]. split; [exact B|]. apply scan_simple; [exact E|apply enc_room].
  - pose proof (code_escape _ _ I) as E. destruct (escape_plain _ _ E) as (B & _ & A). exists e', ds, (next_column (N.of_nat (length ds)) (next_column 1 (next_column 1 m))). split; [reflexivity|]. split; [exact B|].
    unfold scan_escape. cbn [app]. rewrite r_peek; [|cbn; lia|reflexivity]. cbn [nth]. rewrite E. rewrite r_skip, r_skip, r_cache.
    assert (H : forall ds pre v0, Forall (fun d => is_hex d = true) (pre ++ ds) -> scan_hex (length ds) (length pre) start v0 (fc (pre ++ ds ++ t) (next_column 1 (next_column 1 m))) = COk (fold_left (fun n d => n * 16 + as_hex d) ds v0) (fc (pre ++ ds ++ t) (next_column 1 (next_column 1 m)))).
    { clear. induction ds as [|d ds IH]; intros pre v0 F; [reflexivity|]. cbn [length scan_hex fold_left].
      rewrite r_peek; [|rewrite !app_length; cbn; lia|rewrite firstn_app, Nat.sub_diag, firstn_all; cbn [firstn]; rewrite app_nil_r; apply forallb_forall; intros y Y; rewrite Forall_forall in F; specialize (F y (in_or_app _ _ _ (or_introl Y))); cls].
      cbn [app]. rewrite nth_app_here. rewrite (Forall_inv (proj2 (proj1 (Forall_app _ _ _) F))).
      specialize (IH (pre ++ [d]) (v0 * 16 + as_hex d)). rewrite app_length in IH. cbn [length] in IH. rewrite Nat.add_1_r, <- !app_assoc in IH. cbn [app] in IH. apply IH. exact F. }
    specialize (H ds [] 0). cbn [length app] in H. unfold bind at 1. rewrite H by exact F. fold (hex_value ds).
    replace ((0xD800 <=? hex_value ds) && (hex_value ds <=? 0xDFFF)) with false by (unfold scalar_value in S; lia). replace (0x10FFFF <? hex_value ds) with false by (unfold scalar_value in S; lia). cbn [orb].
    rewrite code_bytes_enc, r_put by apply enc_room. unfold bind. rewrite skip_n_run by reflexivity. reflexivity.
Qed.

Lemma lines_white b s v f : lines any_blank b s v f -> forall y, In y s -> is_blank y = true \/ is_break y = true.
Proof.
  induction 1 as [|s v f x H IH X|s v f b' H IH B C]; intros y I; [destruct I| |]; apply in_app_iff in I as [I|I]; auto.
  - destruct I as [<-|[]]. auto.
  - right. destruct B as [(x & -> & Bx)| ->]; [destruct I as [<-|[]]; exact Bx|]. destruct I as [<-|[<-|[]]]; reflexivity.
Qed.
Lemma spelled_not_quote y t v : single = false -> spelled single (y :: t) v -> y <> Q.
Proof.
  intros Sg S. remember (y :: t) as z eqn:E. destruct S as [|x t1 v X1 X2 X3 S|t1 v Sg' S|e x t1 v Sg' Ex S|w t1 v N F W S|w b s bs f t1 v F B Ls W Mk S|b s bs f t1 v Sg' B Ls W Mk S].
  - discriminate.
  - injection E as -> _. exact X2.
  - congruence.
  - injection E as <- _. unfold quote. rewrite Sg. discriminate.
  - destruct w as [|a w]; [contradiction|]. injection E as -> _. apply Forall_inv in F. unfold quote. rewrite Sg. intros ->. discriminate F.
  - unfold quote. rewrite Sg. intros ->. destruct w as [|a w]; [|injection E as -> _; apply Forall_inv in F; discriminate F]. destruct (line_break_some b B) as (Nb & Hb & _). destruct b as [|a b]; [contradiction|]. injection E as -> _. discriminate.
  - injection E as <- _. unfold quote. rewrite Sg. discriminate.
Qed.
Lemma spelled_read u v : spelled single u v -> forall L acc m, (length (u ++ Q :: rest) <= L)%nat ->
  after L acc (u ++ Q :: rest) m (acc ++ utf8 v) (Q :: rest).
Proof.
  induction 1 as [|x t v X1 X2 X3 S IH|t v Sg S IH|e x t v Sg Ex S IH|w t v N F W S IH|w b s bs f t v F B Ls W Mk S IH|b s bs f t v Sg B Ls W Mk S IH]; intros L acc m HL; cbn [app].
  - rewrite app_nil_r. apply a_quote. exact Hr.
  - apply a_char; [exact X1|exact X2|exact X3|]. cbn [app length] in HL. change (utf8 (x :: v)) with (utf8_enc x ++ utf8 v). rewrite app_assoc. apply IH. lia.
  - apply a_pair; [exact Sg|]. cbn [app length] in HL. change (utf8 (0x27 :: v)) with ([0x27] ++ utf8 v). rewrite app_assoc. apply IH. lia.
  - rewrite <- app_assoc. destruct (escaped_read acc e x (t ++ Q :: rest) m Ex) as (y & r & m' & -> & Y & E). cbn [app] in *.
    apply (a_escaped' single start L acc (utf8_enc x) y (r ++ t ++ Q :: rest) (t ++ Q :: rest) m m'); [exact Sg|exact Y|rewrite !app_length; lia|exact E|].
    cbn [length] in HL. rewrite !app_length in HL. change (utf8 (x :: v)) with (utf8_enc x ++ utf8 v). rewrite app_assoc. apply IH. rewrite app_length. lia.
  - rewrite <- app_assoc. rewrite !app_length in HL. destruct w as [|x w]; [contradiction|]. inversion F as [|? ? Fx Fw]; subst.
    apply a_blank; [cbn [app nth]; unfold is_blankz; rewrite Fx; reflexivity|]. apply blanks_read; [exact F|]. intros m' M'.
    apply b_word'; [rewrite app_length; cbn [length] in *; lia|apply (spelled_head t v S W)| |].
    + apply no_indicator. intros C. rewrite M', nlen_cons in C. lia.
    + change (utf8 ((x :: w) ++ v)) with (utf8 (x :: w ++ v)). cbn [QuotedRun.folded]. change ([] ++ utf8 (x :: w)) with (utf8 (x :: w)). change (x :: w ++ v) with ((x :: w) ++ v). rewrite utf8_app, app_assoc. apply IH. apply Nat.le_refl.
  - destruct (line_break_some b B) as (Nb & Hb & _). rewrite !app_length in HL. rewrite <- !app_assoc.
    apply a_blank.
    { destruct w as [|x w]; [destruct b; [contradiction|cbn [app nth] in *; unfold is_blankz, is_breakz; rewrite Hb; rewrite orb_true_r; reflexivity]|]. inversion F; subst. cbn [app nth]. unfold is_blankz. match goal with H : is_blank x = true |- _ => rewrite H end. reflexivity. }
    apply blanks_read; [exact F|]. intros m' _. assert (Lb : (1 <= length b)%nat) by (destruct b; [contradiction|cbn; lia]).
    assert (Tq : nth 0 (t ++ Q :: rest) 0 <> 0xA).
    { intros E. destruct t as [|y t]; cbn [app nth] in E; [unfold quote in E; destruct single; discriminate|]. destruct W as [_ W]. cbn in W. rewrite E in W. discriminate. }
    assert (Hh : last b 0 = 0xD -> nth 0 (s ++ t ++ Q :: rest) 0 <> 0xA).
    { intros E. apply (lines_first b s bs f _ Ls E). apply Tq. }
    apply (b_first_break _ _ _ _ _ b (utf8_enc (break_value b))); [apply line_text_of; [exact B|exact Hh]|].
    intros m2 M2. apply (lines_read _ _ _ _ _ b s bs f Ls); [exact M2|intros _; exact Tq|]. intros m3 M3. cbn [app].
    apply b_word'; [rewrite app_length; lia|apply (spelled_head t v S W)| |].
    + apply no_indicator. rewrite M3. exact Mk.
    + rewrite utf8_app, app_assoc. replace (QuotedRun.folded acc (true, [], utf8_enc (break_value b), utf8 bs)) with (acc ++ utf8 (LexSpec.folded (break_value b) bs)); [apply IH; lia|].
      rewrite folded_utf8. cbn [QuotedRun.folded]. destruct (starts_lf (utf8_enc (break_value b))); [|reflexivity]. destruct (nonempty (utf8 bs)); reflexivity.
  - cbn [app length] in HL. rewrite !app_length in HL. rewrite <- !app_assoc.
    assert (Tq : nth 0 (t ++ Q :: rest) 0 <> 0xA).
    { intros E. destruct t as [|y t]; cbn [app nth] in E; [unfold quote in E; destruct single; discriminate|]. destruct W as [_ W]. cbn in W. rewrite E in W. discriminate. }
    rewrite utf8_app, (app_assoc acc).
    assert (Hd : s ++ t = [] \/ nth 0 (s ++ t ++ Q :: rest) 0 <> Q).
    { destruct s as [|y s].
      - cbn [app]. destruct t as [|y t]; [left; reflexivity|]. right. cbn [app nth]. eapply spelled_not_quote; [exact Sg|exact S].
      - right. cbn [app nth]. apply (lines_white b (y :: s) bs f) with (y := y) in Ls; [|left; reflexivity]. unfold quote. intros ->. rewrite Sg in Ls. destruct Ls; discriminate. }
    destruct Hd as [Hd|Hd].
    + apply app_eq_nil in Hd as [-> ->]. rewrite (lines_nil _ _ _ _ Ls), (spelled_nil _ _ S). cbn [app]. rewrite !app_nil_r. apply a_join_end; assumption.
    + apply a_join; [exact Sg|exact B|intros E; apply (lines_first b s bs f _ Ls E Tq)|exact Hd|]. intros m2 M2.
      apply (lines_read _ _ _ _ _ b s bs f Ls); [exact M2|intros _; exact Tq|]. intros m3 M3. cbn [app].
      apply b_word'; [rewrite app_length; lia|apply (spelled_head t v S W)| |].
      * apply no_indicator. rewrite M3. exact Mk.
      * cbn [QuotedRun.folded starts_lf app]. apply IH. lia.
Qed.
End Spelled.

Theorem quoted_exact single c t : at_text c (quote single :: t) ->
  (forall u v r, t = u ++ quote single :: r -> (single = true -> nth 0 r 0 <> 0x27) -> spelled single u v ->
     exists c', scan_flow_scalar single c = COk (mkToken (TScalar (utf8 v) (if single then SingleQuoted else DoubleQuoted)) (c_mark c) (c_mark c') false) c' /\ c_text c' = r) /\
  (forall tk c', scan_flow_scalar single c = COk tk c' ->
     exists u v, t = u ++ quote single :: c_text c' /\ spelled single u v /\
       tk = mkToken (TScalar (utf8 v) (if single then SingleQuoted else DoubleQuoted)) (c_mark c) (c_mark c') false).
Proof.
  intros (T & Bd & U). split.
  - intros u v r -> Hr S.
    assert (Zq : quote single <> 0 /\ is_break (quote single) = false) by (destruct single; split; (discriminate || reflexivity)).
    destruct (quoted_scalar single (c_mark c) (u ++ quote single :: r) (utf8 v) r (c_mark c) eq_refl) as (e & X).
    + destruct u as [|x u]; [exact (proj1 Zq)|]. cbn [app nth]. intros ->. apply spelled_start in S. exact S.
    + apply (spelled_read single (c_mark c) r Hr u v S _ [] (next_column 1 (c_mark c)) (Nat.le_refl _)).
    + destruct (scalar_any_buffer single c (quote single) (u ++ quote single :: r) r (fun e => mkToken (TScalar (utf8 v) (if single then SingleQuoted else DoubleQuoted)) (c_mark c) e false) Bd) as (e' & c' & Y & T' & M);
        [rewrite T; exact U|exact T|apply Zq|apply Zq|exists e; exact X|].
      exists c'. rewrite M. auto.
  - intros tk c' E. pose proof (x_scan_flow_scalar single t (c_mark c) c) as W. unfold wp in W. rewrite E in W.
    destruct W as (u & v & r & e & Et & S & _ & R & Tk & M); [repeat split; [exact T|lia]|]. exists u, v. rewrite R, M. auto.
Qed.

(* ---- whether the input can be read to its end or not ---- *)
Definition sound {A} (m : cm A) : Prop := forall c,
  match m c with
  | COk a c' => m (full c) = COk a (full c') \/ m (full c) = CBad
  | CErr e => se_problem e = SReader \/ m (full c) = CErr e \/ m (full c) = CBad
  | CBad | CFuel => True
  end.
Lemma sound_ret {A} (a : A) : sound (ret a). Proof. intros c. left. reflexivity. Qed.
Lemma sound_bind {A B} (m : cm A) (k : A -> cm B) : sound m -> (forall a, sound (k a)) -> sound (bind m k).
Proof.
  intros H K c. unfold bind. specialize (H c). destruct (m c) as [a c'|e| |]; auto.
  - destruct H as [-> | ->]; [exact (K a c')|]. destruct (k a c'); auto.
  - destruct H as [H|[-> | ->]]; auto.
Qed.
Lemma sound_err {A} ctx p : sound (@err A ctx p). Proof. intros c. right. left. reflexivity. Qed.
Lemma sound_ub {A} : sound (@ub A). Proof. intros c. exact I. Qed.
Lemma sound_mark : sound get_mark. Proof. intros c. left. reflexivity. Qed.
Lemma sound_column : sound column. Proof. intros c. left. reflexivity. Qed.
Lemma sound_cache n : sound (cache n).
Proof.
  intros c. unfold full. rewrite !cache_full. unfold cache. destruct (n <=? c_unread c)%nat; [left; reflexivity|].
  destruct (c_bad c && (length (c_text c) <? n + hd 0%nat (c_plan c))%nat); [left; reflexivity|left; reflexivity].
Qed.
Lemma sound_peek k : sound (peek k).
Proof.
  intros c. unfold peek. cbn [full c_text c_unread]. destruct (k <? c_unread c)%nat; cbn [andb]; [|exact I].
  destruct (forallb is_ascii (firstn k (c_text c))); [|exact I]. destruct (k <? S (length (c_text c)))%nat; auto.
Qed.
Lemma sound_skip : sound skip.
Proof.
  intros c. unfold skip. cbn [full c_text c_unread c_plan c_bad c_mark]. destruct (c_text c) as [|x r]; [exact I|].
  destruct (c_unread c) as [|u]; [exact I|]. left. reflexivity.
Qed.
Lemma sound_drop_line k : sound (drop_line k).
Proof.
  intros c. unfold drop_line. cbn [full c_text c_unread c_plan c_bad c_mark].
  destruct (k <=? c_unread c)%nat; [|exact I]. destruct (k <=? length (c_text c))%nat eqn:E2; [|exact I]. cbn [andb].
  apply Nat.leb_le in E2. replace (k <=? S (length (c_text c)))%nat with true by (symmetry; apply Nat.leb_le; lia). cbn [andb]. left.
  unfold full. cbn [c_text c_mark]. rewrite skipn_length. replace (S (length (c_text c) - k)) with (S (length (c_text c)) - k)%nat by lia. reflexivity.
Qed.
Lemma sound_loop_n {A B} (body : A -> cm (A + B)) : (forall a, sound (body a)) -> forall n a, sound (loop_n n body a).
Proof.
  intros H. induction n as [|n IH]; intros a c; [exact I|]. cbn [loop_n]. pose proof (H a c) as K.
  destruct (body a c) as [[a'|b] c'|e| |]; auto.
  - destruct K as [-> | ->]; [exact (IH a' c')|]. destruct (loop_n n body a' c'); auto.
  - destruct K as [-> | ->]; auto.
  - destruct K as [K|[-> | ->]]; auto.
Qed.
Lemma sound_loop {A B} (body : A -> cm (A + B)) a : (forall a, sound (body a)) -> sound (loop body a).
Proof. intros H c. exact (sound_loop_n body H (S (length (c_text c))) a c). Qed.
Lemma sound_andc a b : sound a -> sound b -> sound (andc a b).
Proof. intros Ha Hb. apply sound_bind; [exact Ha|]. intros []; [exact Hb|apply sound_ret]. Qed.
Lemma sound_orc a b : sound a -> sound b -> sound (orc a b).
Proof. intros Ha Hb. apply sound_bind; [exact Ha|]. intros []; [apply sound_ret|exact Hb]. Qed.
Lemma sound_check k p : sound (check k p).
Proof. apply sound_bind; [apply sound_peek|]. intros; apply sound_ret. Qed.
Create HintDb so discriminated.
#[local] Hint Resolve sound_ret sound_err sound_ub sound_mark sound_column sound_cache sound_peek sound_skip sound_drop_line sound_check : so.
Ltac so :=
  repeat (intros; match goal with
  | |- sound (bind _ _) => apply sound_bind
  | |- sound (andc _ _) => apply sound_andc
  | |- sound (orc _ _) => apply sound_orc
  | |- sound (loop _ _) => apply sound_loop
  | |- sound (if ?b then _ else _) => destruct b
  | |- sound (match ?x with _ => _ end) => destruct x
  | |- _ => solve [auto with so]
  end).
Lemma sound_crlf : sound is_crlf. Proof. unfold is_crlf. so. Qed.
#[local] Hint Resolve sound_crlf : so.
Lemma sound_skip_line : sound skip_line. Proof. unfold skip_line. so. Qed.
Lemma sound_read s : sound (read s). Proof. unfold read. so. Qed.
Lemma sound_read_line s : sound (read_line s). Proof. unfold read_line. so. Qed.
Lemma sound_put s bs : sound (put s bs). Proof. unfold put. so. Qed.
Lemma sound_triple x : sound (triple x). Proof. unfold triple. so. Qed.
#[local] Hint Resolve sound_skip_line sound_read sound_read_line sound_put sound_triple : so.
Lemma sound_document_indicator : sound document_indicator. Proof. unfold document_indicator. so. Qed.
Lemma sound_scan_hex n : forall k s v, sound (scan_hex n k s v). Proof. induction n; intros; cbn [scan_hex]; so. Qed.
Lemma sound_skip_n n : sound (skip_n n). Proof. induction n; cbn [skip_n]; so. Qed.
#[local] Hint Resolve sound_document_indicator sound_scan_hex sound_skip_n : so.
Lemma sound_scan_escape s x : sound (scan_escape s x). Proof. unfold scan_escape. so. Qed.
#[local] Hint Resolve sound_scan_escape : so.
Lemma sound_scan_quoted_word b s x : sound (scan_quoted_word b s x). Proof. unfold scan_quoted_word. so. Qed.
Lemma sound_scan_quoted_blanks b : sound (scan_quoted_blanks b). Proof. unfold scan_quoted_blanks. so. Qed.
Lemma sound_fold_breaks s l t : sound (fold_breaks s l t). Proof. unfold fold_breaks. so. Qed.
#[local] Hint Resolve sound_scan_quoted_word sound_scan_quoted_blanks sound_fold_breaks : so.
Lemma sound_scan_flow_scalar b : sound (scan_flow_scalar b). Proof. unfold scan_flow_scalar. so. Qed.

Theorem quoted_exactly single c t : (1 <= c_unread c)%nat -> c_text c = quote single :: t ->
  match scan_flow_scalar single c with
  | COk tk c' => exists s, tk = mkToken (TScalar s (if single then SingleQuoted else DoubleQuoted)) (c_mark c) (c_mark c') false /\
      forall s' r, quoted_text single t s' r <-> s' = s /\ r = c_text c'
  | CErr e => se_problem e = SReader \/ forall s r, ~ quoted_text single t s r
  | CBad | CFuel => False
  end.
Proof.
  intros U T.
  pose proof (x_scan_flow_scalar single t (c_mark c) c) as W. unfold wp in W.
  assert (Hh : hold 1 (quote single :: t) (c_mark c) c) by (repeat split; [exact T|lia]). specialize (W Hh).
  pose proof (x_scan_flow_scalar single t (c_mark c) (full c)) as Wf. unfold wp in Wf.
  assert (Hf : hold 1 (quote single :: t) (c_mark c) (full c)) by (repeat split; [exact T|cbn [full c_unread]; lia]). specialize (Wf Hf).
  pose proof (sound_scan_flow_scalar single c) as S.
  destruct (quoted_exact single (full c) t) as [R _].
  { repeat split; [exact T|cbn [full c_unread]; lia|cbn [full c_unread c_text]; rewrite T; lia]. }
  destruct (scan_flow_scalar single c) as [tk c'|e| |]; [| |exact W|exact W].
  - destruct S as [S|S]; [|rewrite S in Wf; contradiction]. destruct W as (u & v & r & e & Et & Sp & Nq & Er & -> & Ee).
    exists (utf8 v). rewrite Ee. split; [reflexivity|]. intros s' r'. split.
    + intros (u' & v' & Et' & Nq' & Sp' & ->). destruct (R u' v' r' Et' Nq' Sp') as (c2 & E2 & T2). rewrite S in E2. injection E2 as E2 E3 E4.
      split; [symmetry; exact E2|]. rewrite <- T2, <- E4. reflexivity.
    + intros [-> ->]. exists u, v. rewrite Er. auto.
  - destruct S as [S|[S|S]]; [left; exact S|right|rewrite S in Wf; contradiction].
    intros s r (u & v & Et & Nq & Sp & ->). destruct (R u v r Et Nq Sp) as (c2 & E2 & _). rewrite S in E2. discriminate.
Qed.
