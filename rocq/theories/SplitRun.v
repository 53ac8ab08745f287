(* What follows a line "..." is scanned as if it were a stream of its own. *)
From Verif Require Import Base ReaderModel Utf8Spec CharSpec Types CursorModel ScanModel ScannerModel ScannerSpec ScannerInv ScannerFetch ScannerBranch ScannerLoop ScannerFinal PlanFree LineCur
  SplitSpec SplitCur SplitScan SplitScanner SplitDoc.

Lemma more_calls s0 s t s' : calls s0 s -> scan s = ScanToken t s' -> calls s0 s'.
Proof. intros H E. induction H; [econstructor; [exact E|constructor]|econstructor 2; eauto|econstructor 3; eauto|econstructor 4; eauto]. Qed.
Lemma scan_shrinks s t s' : scan s = ScanToken t s' -> (slen s' <= slen s)%nat.
Proof.
  unfold scan. destruct (_ || _); [discriminate|]. destruct (s_avail s).
  - destruct (s_tokens s); [discriminate|]. intros E. injection E as _ <-. unfold slen. cbn. lia.
  - destruct (fetch_more_tokens s) as [[] s1| | |] eqn:Ef; try discriminate. apply (shs_more _) in Ef. destruct (s_tokens s1); [discriminate|]. intros E. injection E as _ <-. exact Ef.
Qed.
Lemma scans_shrink s l s' : scans s l s' -> (slen s' <= slen s)%nat.
Proof. induction 1 as [s|s t s1 l s2 E H IH]; [lia|]. apply scan_shrinks in E. lia. Qed.
Lemma init_wfc e nest T plan : wfc (s_cur (init_scanner e nest T false plan)).
Proof. split; [reflexivity|cbn; lia]. Qed.
Lemma move0 t : move_token 0 0 t = t.
Proof. destruct t as [k [i l c] [i' l' c'] b]. unfold move_token, move_mark. cbn. rewrite !N.add_0_r. reflexivity. Qed.

(* as long as something of the common part is left, both texts give the same tokens *)
Section Swap.
Variables (X Y : list N) (e : encoding) (nest : Z) (T1 T2 : list N) (p1 p2 : list nat).
Hypothesis tails : apart X Y \/ (X = [] /\ Y = []).
Lemma swap_scans s1 l s1' : scans s1 l s1' -> forall s2, calls (init_scanner e nest T1 false p1) s1 -> calls (init_scanner e nest T2 false p2) s2 ->
  wfc (s_cur s1) -> wfc (s_cur s2) -> srel X Y 0 0 0 (fulls s1) (fulls s2) -> (length X < slen s1')%nat -> exists s2', scans s2 l s2'.
Proof.
  induction 1 as [s|s t s' l s'' E H IH]; intros s2 C1 C2 W1 W2 R L; [exists s2; constructor|].
  pose proof (scans_shrink _ _ _ H) as L1. pose proof (scan_safe _ _ _ _ _ _ C2) as B1. pose proof (scan_returns _ _ _ _ _ _ C2) as B2.
  pose proof (scan_full s W1) as F1. pose proof (scan_full s2 W2) as F2. rewrite E in F1. destruct F1 as [F1 W1'].
  destruct (scan_both X Y 0 0 0 tails _ _ R) as [K|K]; rewrite F1 in K.
  - destruct K as [_ K]. change (slen (fulls s')) with (slen s') in K. lia.
  - destruct (scan s2) as [t2 s2'|s2'|s2'| |] eqn:E2; try contradiction; destruct F2 as [F2 W2']; rewrite F2 in K; try contradiction.
    destruct K as [-> K]. rewrite move0 in E2. destruct (IH s2' (more_calls _ _ _ _ C1 E) (more_calls _ _ _ _ C2 E2) W1' W2' K L) as [s3 S3].
    exists s3. econstructor; eauto.
Qed.
End Swap.
Lemma swap_init e nest A X Y p1 p2 l s : apart X Y \/ (X = [] /\ Y = []) -> A = [] \/ (exists A', A = A' ++ [0xA]) -> scans (init_scanner e nest (A ++ X) false p1) l s -> (length X < slen s)%nat ->
  exists s', scans (init_scanner e nest (A ++ Y) false p2) l s'.
Proof.
  intros H HA R L. eapply (swap_scans X Y e nest (A ++ X) (A ++ Y) p1 p2); eauto; try (constructor; fail); try apply init_wfc.
  constructor; try reflexivity; [|constructor]. exists A, mark0. split; [reflexivity|]. split; [reflexivity|]. intros _. exact HA.
Qed.

(* the runs on [T2] alone and behind the marker *)
Section Move.
Variables (di dl dp : N) (e : encoding) (nest : Z) (T1 T2 : list N) (p1 p2 : list nat).
Notation agree := (scan_agree [] [] di dl dp).
Lemma no_apart : apart [] [] \/ (@nil N = [] /\ @nil N = []). Proof. auto. Qed.
Lemma all_moved n : forall s1 s2, calls (init_scanner e nest T1 false p1) s1 -> calls (init_scanner e nest T2 false p2) s2 -> wfc (s_cur s1) -> wfc (s_cur s2) ->
  agree (scan (fulls s1)) (scan (fulls s2)) ->
  scan_all n s2 = (map (move_token di dl) (fst (scan_all n s1)), move_outcome di dl (snd (scan_all n s1))).
Proof.
  induction n as [|n IH]; intros s1 s2 H1 H2 W1 W2 K; [reflexivity|]. cbn [scan_all].
  pose proof (scan_safe _ _ _ _ _ _ H1) as A1. pose proof (scan_returns _ _ _ _ _ _ H1) as A2. pose proof (scan_full s1 W1) as A3.
  pose proof (scan_safe _ _ _ _ _ _ H2) as B1. pose proof (scan_returns _ _ _ _ _ _ H2) as B2. pose proof (scan_full s2 W2) as B3.
  destruct (scan s1) as [t1 s1'|s1'|s1'| |] eqn:E1; try contradiction; destruct A3 as [A3 W1']; rewrite A3 in K;
  destruct (scan s2) as [t2 s2'|s2'|s2'| |] eqn:E2; try contradiction; destruct B3 as [B3 W2']; rewrite B3 in K; try contradiction.
  - destruct K as [-> R]. destruct (scan_both [] [] di dl dp no_apart _ _ R) as [[N _]|K]; [destruct (N eq_refl)|].
    rewrite (IH s1' s2' (more_calls _ _ _ _ H1 E1) (more_calls _ _ _ _ H2 E2) W1' W2' K). destruct (scan_all n s1'). reflexivity.
  - pose proof (r_error _ _ _ _ _ _ _ K) as Er. change (s_error (fulls s2')) with (s_error s2') in Er. change (s_error (fulls s1')) with (s_error s1') in Er. rewrite Er. destruct (s_error s1'); reflexivity.
  - change (s_error (fulls s2')) with (s_error s2') in K. change (s_error (fulls s1')) with (s_error s1') in K. cbn in K. rewrite K. destruct (s_error s1'); reflexivity.
Qed.
End Move.

(* the first call *)
Definition began (e : encoding) (nest : Z) (T : list N) : sc := mkSc (cu T mark0) e true false None 0 [] 1 false [] (-1)%Z true [key0] nest.
Lemma cache_cu n t m : cache n (cu t m) = COk tt (cu t m). Proof. unfold cu. apply cache_full. Qed.
Lemma scan_start e nest T : scan (fulls (init_scanner e nest T false [])) = ScanToken (mkToken (TStreamStart e) mark0 mark0 (negb (0 <? nest - 0)%Z)) (began e nest T).
Proof.
  set (s0 := fulls (init_scanner e nest T false [])). set (s1 := mkSc (cu T mark0) e true false None 0 [mkToken (TStreamStart e) mark0 mark0 false] 0 false [] (-1)%Z true [key0] nest).
  assert (E : fetch_next_token s0 = SOk tt s1).
  { unfold fetch_next_token. unfold sbind at 1, lift. change (s_cur s0) with (cu T mark0). rewrite cache_cu. reflexivity. }
  assert (F : fetch_more_tokens s0 = SOk tt (set_avail s1 true)).
  { unfold fetch_more_tokens. change (length (c_text (s_cur s0))) with (length T). replace (length T + 3)%nat with (S (S (length T + 1)))%nat by lia. set (k := (length T + 1)%nat).
    change (fetch_more_n (S (S k)) s0) with (match fetch_next_token s0 with SOk _ s' => fetch_more_n (S k) s' | SErr x => SErr x | SBad => SBad | SFuel => SFuel end).
    rewrite E. reflexivity. }
  unfold scan. change (s_ended s0) with false. change (s_error s0) with (@None serr). change (s_avail s0) with false. cbn [orb]. rewrite F. reflexivity.
Qed.
(* the line break behind the marker *)
Definition fresh_line (s : sc) : sc := mkSc (cu (tl (c_text (s_cur s))) (next_line 1 (smark s))) (s_enc s) (s_started s) (s_ended s) (s_error s) (s_flow s) (s_tokens s) (s_parsed s) (s_avail s) (s_indents s) (s_indent s) true (s_keys s) (s_nest s).
Lemma to_next_line a T m : scan_to_next_token false a (cu (0xA :: T) m) = scan_to_next_token false true (cu T (next_line 1 m)).
Proof.
  unfold scan_to_next_token. set (body := fun allowed => _). unfold loop at 1. change (length (c_text (cu (0xA :: T) m))) with (S (length T)).
  change (loop_n (S (S (length T))) body a (cu (0xA :: T) m)) with (match body a (cu (0xA :: T) m) with COk (inl a') c' => loop_n (S (length T)) body a' c' | COk (inr b) c' => COk b c' | CErr e => CErr e | CBad => CBad | CFuel => CFuel end).
  replace (body a (cu (0xA :: T) m)) with (COk (inl true : bool + bool) (cu T (next_line 1 m))); [reflexivity|].
  unfold body. unfold bind at 1. rewrite cache_cu. unfold bind at 1, column, bind at 1, andc, bind at 1. cbn [cu c_mark ret].
  destruct (m_column m =? 0); destruct a; reflexivity.
Qed.
Definition after_blanks : sm unit :=
  stale_simple_keys ~;; s <~ get ;; unroll_indent (Z.of_N (m_column (smark s))) ~;; lift (cache 4) ~;; b <~ lift (choose (in_flow s)) ;; fetch_branch b.
Lemma fetch_next_eq s t m : s_cur s = cu t m -> s_started s = true -> s_flow s = 0 ->
  fetch_next_token s = match scan_to_next_token false (s_allowed s) (cu t m) with
                       | COk a c => after_blanks (set_allowed (set_cur s c) a) | CErr e => SErr e | CBad => SBad | CFuel => SFuel end.
Proof.
  intros C St F. unfold fetch_next_token. unfold sbind at 1. unfold lift at 1. rewrite C, cache_cu. unfold sbind at 1. cbn [get].
  change (s_started (set_cur s (cu t m))) with (s_started s). rewrite St. cbn [negb]. unfold sbind at 1. unfold lift at 1.
  change (in_flow (set_cur s (cu t m))) with (in_flow s). unfold in_flow at 1. rewrite F. change (negb (0 =? 0)) with false.
  change (s_cur (set_cur s (cu t m))) with (cu t m). change (s_allowed (set_cur s (cu t m))) with (s_allowed s).
  destruct (scan_to_next_token false (s_allowed s) (cu t m)); reflexivity.
Qed.
Lemma next_line_same s T m : s_cur s = cu (0xA :: T) m -> s_started s = true -> s_flow s = 0 -> fetch_next_token s = fetch_next_token (fresh_line s).
Proof.
  intros C St F. rewrite (fetch_next_eq s _ _ C St F). rewrite (fetch_next_eq (fresh_line s) T (next_line 1 m)); auto; [|unfold fresh_line, smark; rewrite C; reflexivity].
  rewrite to_next_line. reflexivity.
Qed.

Section Resume.
Variables (di dl dp : N) (e : encoding) (nest : Z) (T : list N).
(* the state after the marker behaves as the one after STREAM-START *)
Lemma resume s m : s_cur s = cu (0xA :: T) m -> move_mark di dl mark0 = next_line 1 m -> s_enc s = e -> s_nest s = nest -> s_started s = true -> s_ended s = false -> s_error s = None ->
  s_flow s = 0 -> s_tokens s = [] -> s_parsed s = 1 + dp -> s_avail s = false -> s_indents s = [] -> s_indent s = (-1)%Z -> (exists k, s_keys s = [k] /\ k_possible k = false) ->
  scan_agree [] [] di dl dp (scan (began e nest T)) (scan s).
Proof.
  intros C M En Ns St Ed Er Fl Tk Pa Av Is Ii (k & Ks & Kp).
  assert (R : srel [] [] di dl dp (began e nest T) (fresh_line s)).
  { constructor; cbn; auto.
    - exists T, mark0. split; [rewrite app_nil_r; reflexivity|]. split; [|intros X; destruct (X eq_refl)]. rewrite M. unfold fresh_line, smark. cbn. rewrite C, app_nil_r. reflexivity.
    - rewrite Ks. constructor; [|constructor]. split; [rewrite Kp; reflexivity|discriminate]. }
  assert (K : scan_hit [] [] (scan (began e nest T)) \/ scan_agree [] [] di dl dp (scan (began e nest T)) (scan s)).
  { unfold scan. rewrite Ed, Er, Av. cbn [began s_ended s_error s_avail orb].
    assert (E : fetch_more_tokens s = fetch_more_n (length T + 4) (fresh_line s)).
    { unfold fetch_more_tokens. rewrite C. cbn [cu c_text length]. replace (S (length T) + 3)%nat with (S (length T + 3)) by lia. replace (length T + 4)%nat with (S (length T + 3)) by lia.
      cbn [fetch_more_n]. rewrite Tk. change (s_tokens (fresh_line s)) with (s_tokens s). rewrite Tk. unfold sbind at 1. unfold sbind at 2. cbn [sret].
      unfold sbind. rewrite (next_line_same s T m C St Fl). reflexivity. }
    rewrite E. clear E.
    pose proof (locs_more [] [] di dl dp no_apart (length T + 3) (length T + 4) _ _ R) as K. unfold bs in K.
    change (fetch_more_tokens (began e nest T)) with (fetch_more_n (length T + 3) (began e nest T)). 
    destruct K as [[N K]|K]; [destruct (N eq_refl)|]. right.
    destruct (fetch_more_n (length T + 3) (began e nest T)) as [a1 u1|e1| |]; destruct (fetch_more_n (length T + 4) (fresh_line s)) as [a2 u2|e2| |]; cbn in K; try contradiction; try exact I.
    + destruct K as [_ K]. rewrite (r_tokens _ _ _ _ _ _ _ K). destruct (s_tokens u1) as [|t q] eqn:Eq; [exact I|]. cbn [map scan_agree]. rewrite (deep_rel _ _ _ _ _ _ _ K). split; [reflexivity|].
      destruct K. constructor; cbn; auto; [congruence|lia].
    + destruct (s_tokens u1); exact I.
    + destruct (s_tokens u1); exact I.
    + subst e2. reflexivity. }
  destruct K as [[N _]|K]; [destruct (N eq_refl)|exact K].
Qed.
End Resume.

Lemma scan_all_app n : forall s l s' m, scans s l s' -> length l = n -> scan_all (n + m) s = (l ++ fst (scan_all m s'), snd (scan_all m s')).
Proof.
  induction n as [|n IH]; intros s l s' m H E; inversion H; subst; try discriminate.
  - cbn. destruct (scan_all m s'); reflexivity.
  - cbn [Nat.add scan_all]. injection E as E. match goal with E1 : scan s = _ |- _ => rewrite E1 end. erewrite IH by eauto. reflexivity.
Qed.
Lemma scans_prefix_all n : forall s l1 l2 o, scan_all n s = (l1 ++ l2, o) -> exists s', scans s l1 s'.
Proof.
  induction n as [|n IH]; intros s l1 l2 o E; cbn in E.
  - injection E as E _. destruct l1; [|discriminate]. eexists; constructor.
  - destruct l1 as [|t l1]; [eexists; constructor|]. destruct (scan s) as [t' s'|s'|s'| |] eqn:Es; try discriminate.
    destruct (scan_all n s') as [l o'] eqn:E2. injection E as -> -> ->. destruct (IH _ _ _ _ E2) as [s2 H2]. exists s2. econstructor; eauto.
Qed.
Lemma scans_snoc s l t s' : scans s (l ++ [t]) s' -> exists s1, scans s l s1 /\ scan s1 = ScanToken t s'.
Proof.
  revert s. induction l as [|x l IH]; intros s H; cbn in H; inversion H; subst.
  - match goal with H0 : scans _ [] _ |- _ => inversion H0; subst end. eexists. split; [constructor|assumption].
  - match goal with H0 : scans _ (l ++ [t]) _ |- _ => destruct (IH _ H0) as (s2 & A & B) end. exists s2. split; [econstructor; eauto|exact B].
Qed.
Lemma scans_wfc s l s' : scans s l s' -> wfc (s_cur s) -> wfc (s_cur s').
Proof. induction 1 as [s|s t s1 l s2 E H IH]; auto. intros W. apply IH. pose proof (scan_full s W) as K. rewrite E in K. apply K. Qed.
Lemma scans_calls s0 s l s' : scans s l s' -> calls s0 s -> calls s0 s'.
Proof. induction 1 as [s|s t s1 l s2 E H IH]; auto. intros C. apply IH. eapply more_calls; eauto. Qed.
Lemma last_line A : A ++ doc_end_line = [] \/ exists A', A ++ doc_end_line = A' ++ [0xA].
Proof. right. exists (A ++ [0x2E; 0x2E; 0x2E]). unfold doc_end_line. rewrite <- app_assoc. reflexivity. Qed.
Lemma behind_marker A X : skipn (length A + 3) (A ++ doc_end_line ++ X) = 0xA :: X.
Proof. rewrite skipn_app. rewrite skipn_all2 by lia. replace (length A + 3 - length A)%nat with 3%nat by lia. reflexivity. Qed.
Theorem split_scan e nest A X n1 n2 p1 p2 p3 l1 d r o :
  scan_all n1 (init_scanner e nest (A ++ doc_end_line) false p1) = (l1 ++ d :: r, o) ->
  t_tok d = TDocEnd -> m_index (t_start d) = N.of_nat (length A) -> flow_depth l1 = 0 ->
  let alone := scan_all (S n2) (init_scanner e nest X false p2) in
  let di := N.of_nat (length A) + 4 in let dl := m_line (t_start d) + 1 in
  scan_all (length l1 + 1 + n2) (init_scanner e nest (A ++ doc_end_line ++ X) false p3) =
  (l1 ++ d :: map (move_token di dl) (tl (fst alone)), move_outcome di dl (snd alone)).
Proof.
  intros R Td Id Fl alone di dl. replace (l1 ++ d :: r) with ((l1 ++ [d]) ++ r) in R by (rewrite <- app_assoc; reflexivity).
  destruct (scans_prefix_all _ _ _ _ _ R) as [s1 H1]. destruct (scans_snoc _ _ _ _ H1) as (s0 & H0 & E0).
  pose proof (scans_clean _ _ _ _ _ _ _ _ _ H0 E0 Td Fl) as K1.
  assert (I3 : N.to_nat (m_index (t_end d)) = (length A + 3)%nat) by (rewrite (k_index _ _ _ _ _ _ K1), Id; lia).
  assert (L1 : (length (@nil N) < slen s1)%nat).
  { pose proof (k_text _ _ _ _ _ _ K1) as Kt. rewrite I3 in Kt. pose proof (behind_marker A []) as B. rewrite app_nil_r in B. rewrite B in Kt. unfold slen. unfold ctext in Kt. rewrite Kt. cbn. lia. }
  assert (Hx : apart [] X \/ (@nil N = [] /\ X = [])) by (destruct X; [right; auto|left; discriminate]).
  pose proof (swap_init e nest (A ++ doc_end_line) [] X p1 p3 (l1 ++ [d]) s1 Hx (last_line A)) as Sw. rewrite app_nil_r, <- app_assoc in Sw. destruct (Sw H1 L1) as [s2 H2]. clear Sw.
  destruct (scans_snoc _ _ _ _ H2) as (s3 & H3 & E3). pose proof (scans_clean _ _ _ _ _ _ _ _ _ H3 E3 Td Fl) as K.
  replace (length l1 + 1 + n2)%nat with (length (l1 ++ [d]) + n2)%nat by (rewrite app_length; reflexivity).
  rewrite (scan_all_app _ _ _ _ n2 H2 eq_refl). rewrite <- app_assoc. cbn [app].
  (* the run on [X] alone *)
  pose proof (scan_full (init_scanner e nest X false p2) (init_wfc _ _ _ _)) as F. 
  assert (Fe : scan (fulls (init_scanner e nest X false p2)) = ScanToken (mkToken (TStreamStart e) mark0 mark0 (negb (0 <? nest - 0)%Z)) (began e nest X)) by apply scan_start.
  pose proof (scan_safe _ _ _ _ _ _ (calls_nil (init_scanner e nest X false p2))) as A1. pose proof (scan_returns _ _ _ _ _ _ (calls_nil (init_scanner e nest X false p2))) as A2.
  unfold alone. cbn [scan_all]. destruct (scan (init_scanner e nest X false p2)) as [b u|u|u| |] eqn:Eb; try contradiction; destruct F as [F Wu]; rewrite Fe in F; try discriminate.
  assert (Eu : began e nest X = fulls u) by exact (f_equal (fun r => match r with ScanToken _ x => x | _ => fulls u end) F). clear Fe F. destruct (scan_all n2 u) as [l2 o2] eqn:E2. cbn [fst snd tl].
  rewrite (all_moved di dl (nlen l1) e nest X (A ++ doc_end_line ++ X) p2 p3 n2 u s2).
  - rewrite E2. reflexivity.
  - eapply more_calls; [constructor|exact Eb].
  - eapply scans_calls; [exact H2|constructor].
  - exact Wu.
  - eapply scans_wfc; [exact H2|apply init_wfc].
  - rewrite <- Eu. destruct K as [Q1 Q2 Q3 Q4 Q5 Q6 Q7 Q8 Q9 Q10 Q11 Q12 Q13 Q14 Q15 Q16]. apply (resume di dl (nlen l1) e nest X (fulls s2) (t_end d)); auto.
    + unfold fulls, full, cu. cbn. unfold ctext in Q1. rewrite I3, behind_marker in Q1. unfold smark in Q2. rewrite Q1, Q2. reflexivity.
    + unfold move_mark, next_line, mark0, di, dl. cbn. rewrite Q3, Q4, Id. f_equal; lia.
    + cbn. rewrite Q12. lia.
Qed.
