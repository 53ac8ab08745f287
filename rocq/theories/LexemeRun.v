(* The tokens the scanner hands out are those that the text is made of. *)
From Verif Require Import Base ReaderModel Utf8Spec CharSpec Types CursorModel ScanModel ScannerModel CursorProofs ScanProofs ScanQuoted ScannerSpec ScannerInv ScannerFetch ScannerBranch ScannerBlock ScannerLoop ScannerFinal RoundSpec LexSpec GapExact QuotedExact PlainExact BlockExact TagLex LexemeSpec Lexemes.

Definition structural (p : sproblem) : Prop := In p [SReader; SLimit; SNoColon].

(* what holds after a successful run, and after an error *)
Definition sw {A} (m : sm A) (s : sc) (Q : A -> sc -> Prop) (E : serr -> Prop) : Prop :=
  match m s with SOk a s' => Q a s' | SErr e => E e | SBad | SFuel => True end.
Lemma sw_bind {A B} (m : sm A) (k : A -> sm B) s Q E : sw m s (fun a s' => sw (k a) s' Q E) E -> sw (sbind m k) s Q E.
Proof. unfold sw, sbind. destruct (m s); auto. Qed.
Ltac v1 := match goal with
  | |- sw (sbind _ _) _ _ _ => apply sw_bind
  | |- sw (sret _) _ _ _ => unfold sw, sret; cbv beta iota
  | |- sw get ?s ?Q _ => change (Q s s); cbv beta iota
  | |- sw (modify _) _ _ _ => unfold sw at 1, modify; cbv beta iota
  | |- sw (allow _) _ _ _ => unfold sw at 1, allow, modify; cbv beta iota
  | |- sw (enqueue _) _ _ _ => unfold sw at 1, enqueue, modify; cbv beta iota
  end.
Ltac vv := repeat v1.

Definition blocks (s : sc) : list Z := s_indent s :: s_indents s.
Lemma words_app a b : words (a ++ b) = words a ++ words b.
Proof. unfold words. rewrite filter_app, map_app. reflexivity. Qed.
Lemma words_one x : written x = true -> words [x] = [t_tok x].
Proof. intros H. unfold words. cbn [filter]. rewrite H. reflexivity. Qed.
Lemma words_none x : written x = false -> words [x] = [].
Proof. intros H. unfold words. cbn [filter]. rewrite H. reflexivity. Qed.
Lemma words_insert i x q : written x = false -> words (firstn i q ++ x :: skipn i q) = words q.
Proof.
  intros H. change (x :: skipn i q) with ([x] ++ skipn i q). rewrite !words_app, (words_none x H). cbn [app].
  rewrite <- words_app, firstn_skipn. reflexivity.
Qed.
Lemma unroll_leave m c : forall is i q i' is' q', unroll m c i is q = Some (i', is', q') -> i' :: is' = leave c (i :: is) /\ words q' = words q.
Proof.
  induction is as [|j is IH]; intros i q i' is' q'; cbn [unroll leave]; destruct (c <? i)%Z; try discriminate.
  - intros [= <- <- <-]. auto.
  - intros H. apply IH in H as [H1 H2]. split; [exact H1|]. rewrite H2, words_app. apply app_nil_r.
  - intros [= <- <- <-]. auto.
Qed.

(* the simple keys of the scanner and those of the specification *)
Definition cand (m : mark) (k : skey) (c : option mark) : Prop :=
  if k_possible k then c = Some (k_mark k)
  else match c with None => True | Some m0 => m_line m0 < m_line m \/ m_index m0 + 1024 < m_index m end.
Definition cands (m : mark) (ks : list skey) (cs : list (option mark)) : Prop := Forall2 (cand m) ks cs.

Section Branch.
Variable E : serr -> Prop.
Hypothesis HE : forall e, structural (se_problem e) -> E e.
Ltac str := apply HE; cbn; unfold structural; cbn; tauto.

Lemma sw_remove s (Q : unit -> sc -> Prop) :
  (forall ks, (forall m cs, cands m (s_keys s) cs -> cands m ks (None :: tl cs)) -> Q tt (set_keys s ks)) -> sw remove_simple_key s Q E.
Proof.
  intros HQ. unfold sw, remove_simple_key. destruct (s_keys s) as [|k ks]; [exact I|].
  destruct (k_possible k && k_required k); [str|apply HQ]. intros m cs H. inversion H; subst. constructor; [exact I|assumption].
Qed.
Lemma sw_save s (Q : unit -> sc -> Prop) :
  (forall ks, (forall m cs, cands m (s_keys s) cs -> cands m ks (if s_allowed s then Some (smark s) :: tl cs else cs)) -> Q tt (set_keys s ks)) -> sw save_simple_key s Q E.
Proof.
  intros HQ. unfold save_simple_key. v1. v1. destruct (s_allowed s) eqn:Al.
  - v1. apply sw_remove. intros ks K. v1. cbn [s_keys set_keys]. match goal with |- Q tt (set_keys (set_keys s _) ?l) => apply (HQ l) end.
    intros m cs H. apply K in H. inversion H; subst. constructor; [reflexivity|assumption].
  - v1. rewrite <- (set_keys_same s). apply HQ. auto.
Qed.
Lemma sw_increase s (Q : unit -> sc -> Prop) :
  (forall ks, (forall m cs, cands m (s_keys s) cs -> cands m ks (None :: cs)) -> Q tt (set_flow (set_keys s ks) (s_flow s + 1))) -> sw increase_flow_level s Q E.
Proof.
  intros HQ. unfold increase_flow_level. v1. v1. destruct (s_flow s =? INT_MAX); [str|]. v1. apply (HQ (key0 :: s_keys s)).
  intros m cs H. constructor; [exact I|exact H].
Qed.
Lemma sw_decrease s (Q : unit -> sc -> Prop) :
  (forall ks, (forall m cs, cands m (s_keys s) cs -> cands m ks (if in_flow s then tl cs else cs)) -> Q tt (set_flow (set_keys s ks) (s_flow s - 1))) -> sw decrease_flow_level s Q E.
Proof.
  intros HQ. unfold sw, decrease_flow_level. unfold in_flow in HQ. destruct (N.eqb_spec (s_flow s) 0) as [F|F]; cbn [negb] in HQ.
  - specialize (HQ (s_keys s) ltac:(auto)). rewrite set_keys_same in HQ. replace (set_flow s (s_flow s - 1)) with s in HQ; [exact HQ|]. rewrite F. destruct s; cbn in *. subst. reflexivity.
  - destruct (s_keys s) as [|k ks]; [exact I|apply HQ]. intros m cs H. inversion H; subst. assumption.
Qed.
Lemma sw_unroll s c (Q : unit -> sc -> Prop) :
  (forall s', s_cur s' = s_cur s -> s_flow s' = s_flow s -> s_allowed s' = s_allowed s -> s_keys s' = s_keys s -> words (s_tokens s') = words (s_tokens s) ->
     blocks s' = (if in_flow s then blocks s else leave c (blocks s)) -> Q tt s') -> sw (unroll_indent c) s Q E.
Proof.
  intros HQ. unfold sw, unroll_indent. destruct (in_flow s) eqn:F; [apply HQ; auto|].
  destruct (unroll (smark s) c (s_indent s) (s_indents s) (s_tokens s)) as [[[i is] q]|] eqn:U; [|exact I]. apply unroll_leave in U as [U1 U2].
  apply HQ; auto.
Qed.
Lemma sw_reset s (Q : unit -> sc -> Prop) :
  (forall s', s_cur s' = s_cur s -> s_flow s' = s_flow s -> s_allowed s' = false -> words (s_tokens s') = words (s_tokens s) ->
     blocks s' = (if in_flow s then blocks s else leave (-1) (blocks s)) -> (forall m cs, cands m (s_keys s) cs -> cands m (s_keys s') (None :: tl cs)) -> Q tt s') -> sw reset_block s Q E.
Proof.
  intros HQ. unfold reset_block. v1. apply sw_unroll. intros s1 A1 A2 _ A0 A3 A4. v1. apply sw_remove. intros ks K. v1. rewrite A0 in K. apply HQ; auto.
Qed.
Lemma sw_roll s c n t m (Q : unit -> sc -> Prop) : written (mkToken t m m false) = false ->
  (forall s', s_cur s' = s_cur s -> s_flow s' = s_flow s -> s_allowed s' = s_allowed s -> s_keys s' = s_keys s -> words (s_tokens s') = words (s_tokens s) ->
     blocks s' = (if in_flow s then blocks s else enter (Z.of_N c) (blocks s)) -> Q tt s') ->
  sw (roll_indent c n t m) s Q E.
Proof.
  intros W HQ. unfold roll_indent. v1. v1. destruct (in_flow s) eqn:F; [v1; apply HQ; auto|].
  change (enter (Z.of_N c) (blocks s)) with (if (s_indent s <? Z.of_N c)%Z then Z.of_N c :: blocks s else blocks s) in HQ.
  destruct (s_indent s <? Z.of_N c)%Z; [|v1; apply HQ; auto]. destruct (INT_MAX <? c); [str|].
  v1. v1. destruct n as [n|].
  - unfold sw, queue_insert. destruct (_ && _); [|exact I]. apply HQ; auto. cbn [s_tokens set_tokens set_indents]. apply words_insert. exact W.
  - v1. apply HQ; auto. cbn [s_tokens set_tokens set_indents]. rewrite words_app, (words_none _ W). apply app_nil_r.
Qed.
Lemma sw_block_start p t s (Q : unit -> sc -> Prop) : (in_flow s = false -> s_allowed s = false -> forall e, E e) -> written (mkToken t (smark s) (smark s) false) = false ->
  (forall s', s_cur s' = s_cur s -> s_flow s' = s_flow s -> s_allowed s' = s_allowed s -> s_keys s' = s_keys s -> words (s_tokens s') = words (s_tokens s) ->
     (in_flow s = false -> s_allowed s = true) ->
     blocks s' = (if in_flow s then blocks s else enter (Z.of_N (m_column (smark s))) (blocks s)) -> Q tt s') ->
  sw (block_start p t) s Q E.
Proof.
  intros Hp W HQ. unfold block_start. v1. v1. destruct (in_flow s) eqn:F; [v1; apply HQ; auto; discriminate|].
  destruct (s_allowed s) eqn:Al; cbn [negb]; [|apply Hp; auto].
  apply sw_roll; [exact W|]. intros s' A1 A2 A3 A4 A5 A6. rewrite F in A6. apply HQ; auto. congruence.
Qed.

(* one step, read off the state before and after *)
Definition stepped (cs : list (option mark)) (b : branch) (s s' : sc) : Prop :=
  exists k lb, lex_of b (in_flow s) (s_indent s) (ctext s) k lb (ctext s') /\ s_flow s' = flow_next (s_flow s) k /\
    blocks s' = blocks_next (in_flow s) (smark s) cs (blocks s) k /\
    s_allowed s' = key_next (in_flow s) (smark s) cs k lb /\ permitted (in_flow s) (s_allowed s) (smark s) cs k /\
    cands (smark s) (s_keys s') (keys_next (in_flow s) (s_allowed s) (smark s) cs k) /\ words (s_tokens s') = words (s_tokens s) ++ [k].
Definition refused (cs : list (option mark)) (b : branch) (s : sc) (e : serr) : Prop :=
  structural (se_problem e) \/
  forall k lb r, ~ (lex_of b (in_flow s) (s_indent s) (ctext s) k lb r /\ permitted (in_flow s) (s_allowed s) (smark s) cs k).

Lemma sw_chars n k s (Q : unit -> sc -> Prop) :
  (forall c' pre, c_text (s_cur s) = pre ++ c_text c' -> length pre = n -> m_index (c_mark c') = m_index (smark s) + N.of_nat n ->
     Q tt (set_tokens (set_cur s c') (s_tokens s ++ [mkToken k (smark s) (c_mark c') false]))) -> sw (fetch_chars n k) s Q E.
Proof.
  intros HQ. unfold fetch_chars. v1. v1. v1. unfold sw at 1, lift.
  assert (K : forall n c, match skip_n n c with COk _ c' => exists pre, c_text c = pre ++ c_text c' /\ length pre = n /\ m_index (c_mark c') = m_index (c_mark c) + N.of_nat n | CErr _ => False | _ => True end).
  { clear. induction n as [|n IH]; intros c; cbn [skip_n].
    - exists []. cbn. repeat split. lia.
    - unfold bind, skip. destruct (c_text c) as [|x r] eqn:Et; [exact I|]. destruct (c_unread c) as [|u]; [exact I|].
      specialize (IH (mkCur r u (c_plan c) (c_bad c) (next_column 1 (c_mark c)))).
      destruct (skip_n n _) as [a c'|e| |]; auto. destruct IH as (pre & H1 & H2 & H3). exists (x :: pre). cbn in *. rewrite H1. split; [reflexivity|]. split; [lia|]. rewrite H3. lia. }
  specialize (K n (s_cur s)). destruct (skip_n n (s_cur s)) as [a c'|e| |]; auto; [|contradiction].
  destruct K as (pre & H1 & H2 & H3). v1. v1. v1. apply (HQ c' pre H1 H2 H3).
Qed.
End Branch.

Section Fetch.
Variable T : list N.
Notation at_branch := (at_branch T).

Lemma directive_kinds t k r : directive_text t k r -> match k with TVersion _ _ | TTagDirective _ _ => True | _ => False end.
Proof. intros []; exact I. Qed.

Lemma opens_plain flow t : plain_opens flow t -> not_white t /\ ~ word_stops flow t /\ nth 0 t 0 <> 0x23.
Proof.
  intros [Z P]. assert (Z1 : is_blank (nth 0 t 0) = false) by cls. assert (Z2 : is_break (nth 0 t 0) = false) by cls. assert (Z3 : nth 0 t 0 <> 0) by cls.
  split; [split; assumption|]. split.
  - intros [W|[[W1 W2]|[-> W]]]; [contradiction| |].
    + destruct P as [P|[P _]]; [apply P; rewrite W1; unfold indicators; cbn; tauto|congruence].
    + unfold flow_indicator in W. apply existsb_exists in W as (y & I & W). apply N.eqb_eq in W. subst y.
      destruct P as [P|[_ [P|[P _]]]]; [apply P| |discriminate].
      * unfold indicators. cbn [In] in I |- *. tauto.
      * rewrite P in I. cbn in I. repeat (destruct I as [I|I]; [discriminate|]). exact I.
  - intros W. destruct P as [P|[_ [P|[_ [P|P]]]]]; [apply P; rewrite W; unfold indicators; cbn; tauto|rewrite W in P; discriminate..].
Qed.
Lemma one_char (x : N) (t pre r : list N) : t = pre ++ r -> length pre = 1%nat -> (exists q, t = x :: q) -> t = x :: r.
Proof. intros H1 H2 [q H3]. destruct pre as [|y [|? ?]]; try discriminate. cbn in H1. congruence. Qed.
Ltac ref := let H := fresh in intros ? H; left; exact H.
Ltac bn := unfold blocks_next; match goal with |- context[in_flow ?s] => destruct (in_flow s); reflexivity end.
Ltac steps K := repeat (split; [first [reflexivity|bn|intros _; exact I|exact K]|]); apply words_app.
Ltac no_perm := let P := fresh in intros F Al ?; right; intros k lb r ((_ & _ & ->) & P); specialize (P F); cbn in P; congruence.

Lemma key_fresh es all s k ks cs : at_branch es all s -> s_keys s = k :: ks -> cands (smark s) (s_keys s) cs ->
  key_before (smark s) cs = if k_possible k then Some (k_mark k) else None.
Proof.
  intros B Ek H. rewrite Ek in H. inversion H as [|? c ? cs' Hk _]; subst. unfold key_before. cbn [nth]. unfold cand in Hk. destruct (k_possible k) eqn:Pk.
  - subst c. destruct (b_fresh _ _ _ _ B k) as [L I]; [rewrite Ek; left; reflexivity|exact Pk|]. rewrite L, N.eqb_refl. cbn [andb].
    apply N.leb_le in I. rewrite I. reflexivity.
  - destruct c as [m0|]; [|reflexivity]. destruct (N.eqb_spec (m_line m0) (m_line (smark s))); [|reflexivity]. destruct (N.leb_spec (m_index (smark s)) (m_index m0 + 1024)); [lia|reflexivity].
Qed.
Lemma branch_lex es all s b cs : at_branch es all s -> cands (smark s) (s_keys s) cs -> b = kind (in_flow s) (m_column (smark s) =? 0) (ctext s) -> b <> BStreamEnd ->
  sw (fetch_branch b) s (fun _ s' => stepped cs b s s') (refused cs b s).
Proof.
  intros B Hc Eb Nb. pose proof (kind_head (in_flow s) (m_column (smark s) =? 0) (ctext s)) as Hh. pose proof (kind_facts (in_flow s) (m_column (smark s) =? 0) (ctext s)) as Hf.
  rewrite <- Eb in Hh, Hf. assert (Hu : (1 <= c_unread (s_cur s))%nat) by (destruct (branch_hold1 _ _ _ _ B) as (_ & _ & U); lia).
  destruct b; cbn [fetch_branch head_of] in *; try specialize (Hh _ eq_refl); [contradiction Nb; reflexivity|..]; clear Nb Eb.
  - (* directive *)
    unfold fetch_directive. v1. apply sw_reset; [ref|]. intros s1 A1 A2 A3 A4 A5 A6. v1.
    destruct Hh as [t Ht]. assert (Hc1 : c_text (s_cur s1) = 0x25 :: t) by (rewrite A1; exact Ht).
    pose proof (directive_exact (s_cur s1) 0x25 t ltac:(rewrite A1; exact Hu) Hc1) as X. unfold sw at 1, lift.
    destruct (scan_directive (s_cur s1)) as [tk c'|e| |]; auto.
    + destruct X as (d & e & -> & X). destruct (proj2 (X d (c_text c')) (conj eq_refl eq_refl)) as (r1 & D1 & D2). vv.
      assert (Dk := directive_kinds _ _ _ D1). exists d, false. cbn [ctext s_cur set_tokens set_cur s_flow s_tokens s_allowed].
      split; [split; [reflexivity|]; exists t; split; [exact Ht|]; exists r1; auto|].
      split; [rewrite A2; destruct d; contradiction || reflexivity|].
      split; [change (blocks (set_tokens (set_cur s1 c') (s_tokens s1 ++ [mkToken d (c_mark (s_cur s1)) e false]))) with (blocks s1); rewrite A5; unfold blocks_next; destruct (in_flow s); [reflexivity|]; destruct d; contradiction || reflexivity|].
      split; [rewrite A3; destruct d; contradiction || reflexivity|].
      split; [intros _; destruct d; contradiction || exact I|]. split; [pose proof (A6 _ _ Hc) as Z; destruct d; contradiction || exact Z|].
      rewrite words_app, A4. f_equal. apply words_one. destruct d; contradiction || reflexivity.
    + destruct X as [X|X]; [left; rewrite X; unfold structural; cbn; tauto|right]. intros k lb r ((_ & t1 & Et & r1 & D1 & D2) & _).
      rewrite Ht in Et. injection Et as <-. exact (X k r1 r (conj D1 D2)).
  - (* --- *)
    destruct Hf as (_ & x & q & Eq & _). destruct Hh as [q' Hh]. rewrite Hh in Eq. injection Eq as <- Eq. subst q'.
    unfold fetch_document_indicator. v1. apply sw_reset; [ref|]. intros s1 A1 A2 A3 A4 A5 A6. apply sw_chars. intros c' pre P1 P2 P3.
    rewrite A1 in P1. change (c_text (s_cur s)) with (ctext s) in P1. rewrite Hh in P1. destruct pre as [|? [|? [|? [|? ?]]]]; try discriminate P2. cbn in P1. injection P1 as <- <- <- P1.
    exists TDocStart, false. cbn [ctext s_cur set_tokens set_cur s_flow s_tokens s_allowed].
    split; [split; [reflexivity|]; split; [rewrite Hh, P1; reflexivity|reflexivity]|]. split; [exact A2|]. split; [unfold blocks_next; destruct (in_flow s); exact A5|].
    split; [exact A3|]. split; [intros _; exact I|]. split; [exact (A6 _ _ Hc)|]. rewrite words_app, A4. reflexivity.
  - (* ... *)
    destruct Hf as (_ & x & q & Eq & _). destruct Hh as [q' Hh]. rewrite Hh in Eq. injection Eq as <- Eq. subst q'.
    unfold fetch_document_indicator. v1. apply sw_reset; [ref|]. intros s1 A1 A2 A3 A4 A5 A6. apply sw_chars. intros c' pre P1 P2 P3.
    rewrite A1 in P1. change (c_text (s_cur s)) with (ctext s) in P1. rewrite Hh in P1. destruct pre as [|? [|? [|? [|? ?]]]]; try discriminate P2. cbn in P1. injection P1 as <- <- <- P1.
    exists TDocEnd, false. cbn [ctext s_cur set_tokens set_cur s_flow s_tokens s_allowed].
    split; [split; [reflexivity|]; split; [rewrite Hh, P1; reflexivity|reflexivity]|]. split; [exact A2|]. split; [unfold blocks_next; destruct (in_flow s); exact A5|].
    split; [exact A3|]. split; [intros _; exact I|]. split; [exact (A6 _ _ Hc)|]. rewrite words_app, A4. reflexivity.
  - unfold fetch_flow_collection_start. v1. apply sw_save; [ref|]. intros ks K. v1. apply sw_increase; [ref|]. intros ks' K'. v1. v1. apply sw_chars. intros c' pre P1 P2 P3. apply (one_char _ _ _ _ P1 P2) in Hh.
    exists TFlowSeqStart, false. split; [exact (conj eq_refl (conj Hh eq_refl))|]. steps (K' _ _ (K _ _ Hc)).
  - unfold fetch_flow_collection_start. v1. apply sw_save; [ref|]. intros ks K. v1. apply sw_increase; [ref|]. intros ks' K'. v1. v1. apply sw_chars. intros c' pre P1 P2 P3. apply (one_char _ _ _ _ P1 P2) in Hh.
    exists TFlowMapStart, false. split; [exact (conj eq_refl (conj Hh eq_refl))|]. steps (K' _ _ (K _ _ Hc)).
  - unfold fetch_flow_collection_end. v1. apply sw_remove; [ref|]. intros ks K. v1. apply sw_decrease. intros ks' K'. v1. v1. apply sw_chars. intros c' pre P1 P2 P3. apply (one_char _ _ _ _ P1 P2) in Hh.
      exists TFlowSeqEnd, false. split; [exact (conj eq_refl (conj Hh eq_refl))|]. assert (Z := K' _ _ (K _ _ Hc)). steps Z.
  - unfold fetch_flow_collection_end. v1. apply sw_remove; [ref|]. intros ks K. v1. apply sw_decrease. intros ks' K'. v1. v1. apply sw_chars. intros c' pre P1 P2 P3. apply (one_char _ _ _ _ P1 P2) in Hh.
      exists TFlowMapEnd, false. split; [exact (conj eq_refl (conj Hh eq_refl))|]. assert (Z := K' _ _ (K _ _ Hc)). steps Z.
  - unfold fetch_flow_entry. v1. apply sw_remove; [ref|]. intros ks K. v1. v1. apply sw_chars. intros c' pre P1 P2 P3. apply (one_char _ _ _ _ P1 P2) in Hh.
    exists TFlowEntry, false. split; [exact (conj eq_refl (conj Hh eq_refl))|]. steps (K _ _ Hc).
  - unfold fetch_block_entry. v1. apply sw_block_start; [ref|no_perm|reflexivity|]. intros s1 A1 A2 A3 A4 A5 A6 A7. v1. apply sw_remove; [ref|]. intros ks K. v1. v1.
    apply sw_chars. intros c' pre P1 P2 P3. cbn [s_cur set_keys set_allowed] in P1. rewrite A1 in P1. apply (one_char _ _ _ _ P1 P2) in Hh.
    exists TBlockEntry, false. split; [exact (conj eq_refl (conj Hh eq_refl))|]. split; [exact A2|].
    split; [unfold blocks_next; destruct (in_flow s); exact A7|]. split; [reflexivity|]. split; [exact A6|]. split; [rewrite A4 in K; exact (K _ _ Hc)|]. cbn [s_tokens set_tokens set_cur set_allowed set_keys]. rewrite words_app, A5. reflexivity.
  - unfold fetch_key. v1. apply sw_block_start; [ref|no_perm|reflexivity|]. intros s1 A1 A2 A3 A4 A5 A6 A7. v1. apply sw_remove; [ref|]. intros ks K. v1. v1. v1. v1.
    apply sw_chars. intros c' pre P1 P2 P3. cbn [s_cur set_keys set_allowed] in P1. rewrite A1 in P1. apply (one_char _ _ _ _ P1 P2) in Hh.
    exists TKey, false. split; [exact (conj eq_refl (conj Hh eq_refl))|]. split; [exact A2|].
    split; [unfold blocks_next; destruct (in_flow s); exact A7|]. split; [cbn; unfold in_flow; cbn; rewrite A2; reflexivity|]. split; [exact A6|]. split; [rewrite A4 in K; exact (K _ _ Hc)|]. cbn [s_tokens set_tokens set_cur set_allowed set_keys]. rewrite words_app, A5. f_equal. apply words_one.
    unfold written. cbn [t_tok t_start t_end]. apply N.ltb_lt. rewrite P3. lia.
  - unfold fetch_value. v1. v1. destruct (s_keys s) as [|k ks] eqn:Ek; [exact I|]. rewrite <- Ek in Hc. pose proof (key_fresh _ _ _ _ _ _ B Ek Hc) as Kb.
    v1. destruct (k_possible k) eqn:Pk.
    + v1. unfold sw at 1, queue_insert. destruct (_ && _); [|exact I].
      assert (Wk : written (mkToken TKey (k_mark k) (k_mark k) false) = false) by (unfold written; cbn; apply N.ltb_irrefl).
      v1. apply sw_roll; [ref|reflexivity|]. intros s1 A1 A2 A3 _ A5 A6. v1. v1. v1. apply sw_chars. intros c' pre P1 P2 P3.
      cbn [s_cur set_keys set_allowed set_tokens] in P1, A1. rewrite A1 in P1. apply (one_char _ _ _ _ P1 P2) in Hh.
      exists TValue, false. split; [exact (conj eq_refl (conj Hh eq_refl))|]. split; [exact A2|].
      split; [unfold blocks_next; rewrite Kb; exact A6|]. split; [unfold key_next; rewrite Kb; reflexivity|].
      split; [intros _ X; rewrite Kb in X; discriminate X|].
      split; [rewrite Ek in Hc; inversion Hc; subst; constructor; [exact I|assumption]|].
      cbn [s_tokens set_tokens set_cur set_allowed set_keys] in *. rewrite words_app, A5. f_equal. apply words_insert. exact Wk.
    + v1. apply sw_block_start; [ref|intros F Al ?; right; intros k' lb r ((_ & _ & ->) & P); specialize (P F Kb); congruence|reflexivity|]. intros s1 A1 A2 A3 A4 A5 A6 A7. v1.
      apply sw_chars. intros c' pre P1 P2 P3. cbn [s_cur set_keys set_allowed] in P1. rewrite A1 in P1. apply (one_char _ _ _ _ P1 P2) in Hh.
      exists TValue, false. split; [exact (conj eq_refl (conj Hh eq_refl))|]. split; [exact A2|].
      split; [unfold blocks_next; rewrite Kb; exact A7|]. split; [unfold key_next; rewrite Kb; reflexivity|]. split; [intros F _; exact (A6 F)|].
      split; [change (cands (smark s) (s_keys s1) (None :: tl cs)); rewrite A4; rewrite Ek in Hc |- *; inversion Hc; subst; constructor; [unfold cand; rewrite Pk; exact I|assumption]|].
      cbn [s_tokens set_tokens set_cur set_allowed set_keys]. rewrite words_app, A5. reflexivity.
  - unfold fetch_anchor. v1. apply sw_save; [ref|]. intros ks K. v1. v1. v1. destruct Hh as [t Ht].
    pose proof (anchor_exact false (s_cur s) 0x2A t Hu Ht) as X. unfold sw at 1, lift. cbn [s_cur set_keys set_allowed].
    destruct (scan_anchor false (s_cur s)) as [tk c'|e| |]; auto.
    + destruct X as (n & -> & X). pose proof (proj2 (X n (c_text c')) (conj eq_refl eq_refl)) as D. vv.
      exists (TAlias n), false. split; [split; [reflexivity|]; exists t; split; [exact Ht|]; exists n; auto|].
      steps (K _ _ Hc).
    + destruct X as [X|X]; [left; rewrite X; unfold structural; cbn; tauto|right]. intros k lb r ((_ & t1 & Et & n & _ & D) & _). rewrite Ht in Et. injection Et as <-. exact (X n r D).
  - unfold fetch_anchor. v1. apply sw_save; [ref|]. intros ks K. v1. v1. v1. destruct Hh as [t Ht].
    pose proof (anchor_exact true (s_cur s) 0x26 t Hu Ht) as X. unfold sw at 1, lift. cbn [s_cur set_keys set_allowed].
    destruct (scan_anchor true (s_cur s)) as [tk c'|e| |]; auto.
    + destruct X as (n & -> & X). pose proof (proj2 (X n (c_text c')) (conj eq_refl eq_refl)) as D. vv.
      exists (TAnchor n), false. split; [split; [reflexivity|]; exists t; split; [exact Ht|]; exists n; auto|].
      steps (K _ _ Hc).
    + destruct X as [X|X]; [left; rewrite X; unfold structural; cbn; tauto|right]. intros k lb r ((_ & t1 & Et & n & _ & D) & _). rewrite Ht in Et. injection Et as <-. exact (X n r D).
  - unfold fetch_tag. v1. apply sw_save; [ref|]. intros ks K. v1. v1. v1. v1. v1. destruct Hh as [t Ht].
    pose proof (tag_exact (in_flow s) (s_cur s) t Ht) as X. unfold sw at 1, lift. cbn [s_cur set_keys set_allowed]. change (in_flow (set_allowed (set_keys s ks) false)) with (in_flow s).
    destruct (scan_tag (in_flow s) (s_cur s)) as [tk c'|e| |]; auto.
    + destruct X as (h & n & -> & X). pose proof (proj2 (X h n (c_text c')) (conj eq_refl (conj eq_refl eq_refl))) as D. vv.
      exists (TTag h n), false. split; [split; [reflexivity|]; exists t; split; [exact Ht|]; exists h, n; auto|].
      steps (K _ _ Hc).
    + destruct X as [X|X]; [left; rewrite X; unfold structural; cbn; tauto|right]. intros k lb r ((_ & t1 & Et & h & n & _ & D) & _). rewrite Ht in Et. injection Et as <-. exact (X h n r D).
  - unfold fetch_block_scalar. v1. apply sw_remove; [ref|]. intros ks K. v1. v1. v1. v1. v1. destruct Hh as [t Ht].
    pose proof (block_exact true (s_indent s) (s_cur s) 0x7C t Hu Ht) as X. unfold sw at 1, lift. cbn [s_cur set_keys set_allowed s_indent].
    destruct (scan_block_scalar (s_indent s) true (s_cur s)) as [tk c'|e| |]; auto.
    + destruct X as (v & e & -> & X). pose proof (proj2 (X v (c_text c')) (conj eq_refl eq_refl)) as D. vv.
      exists (TScalar (utf8 v) Literal), false. split; [split; [reflexivity|]; exists t; split; [exact Ht|]; exists v; auto|].
      steps (K _ _ Hc).
    + destruct X as [X|[_ X]]; [left; rewrite X; unfold structural; cbn; tauto|right]. intros k lb r ((_ & t1 & Et & v & _ & D) & _). rewrite Ht in Et. injection Et as <-. exact (X v r D).
  - unfold fetch_block_scalar. v1. apply sw_remove; [ref|]. intros ks K. v1. v1. v1. v1. v1. destruct Hh as [t Ht].
    pose proof (block_exact false (s_indent s) (s_cur s) 0x3E t Hu Ht) as X. unfold sw at 1, lift. cbn [s_cur set_keys set_allowed s_indent].
    destruct (scan_block_scalar (s_indent s) false (s_cur s)) as [tk c'|e| |]; auto.
    + destruct X as (v & e & -> & X). pose proof (proj2 (X v (c_text c')) (conj eq_refl eq_refl)) as D. vv.
      exists (TScalar (utf8 v) Folded), false. split; [split; [reflexivity|]; exists t; split; [exact Ht|]; exists v; auto|].
      steps (K _ _ Hc).
    + destruct X as [X|[_ X]]; [left; rewrite X; unfold structural; cbn; tauto|right]. intros k lb r ((_ & t1 & Et & v & _ & D) & _). rewrite Ht in Et. injection Et as <-. exact (X v r D).
  - unfold fetch_flow_scalar. v1. apply sw_save; [ref|]. intros ks K. v1. v1. v1. destruct Hh as [t Ht].
    pose proof (quoted_exactly true (s_cur s) t Hu Ht) as X. unfold sw at 1, lift. cbn [s_cur set_keys set_allowed].
    destruct (scan_flow_scalar true (s_cur s)) as [tk c'|e| |]; auto.
    + destruct X as (v & -> & X). pose proof (proj2 (X v (c_text c')) (conj eq_refl eq_refl)) as D. vv.
      exists (TScalar v SingleQuoted), false. split; [split; [reflexivity|]; exists t; split; [exact Ht|]; exists v; auto|].
      steps (K _ _ Hc).
    + destruct X as [X|X]; [left; rewrite X; unfold structural; cbn; tauto|right]. intros k lb r ((_ & t1 & Et & v & _ & D) & _). rewrite Ht in Et. injection Et as <-. exact (X v r D).
  - unfold fetch_flow_scalar. v1. apply sw_save; [ref|]. intros ks K. v1. v1. v1. destruct Hh as [t Ht].
    pose proof (quoted_exactly false (s_cur s) t Hu Ht) as X. unfold sw at 1, lift. cbn [s_cur set_keys set_allowed].
    destruct (scan_flow_scalar false (s_cur s)) as [tk c'|e| |]; auto.
    + destruct X as (v & -> & X). pose proof (proj2 (X v (c_text c')) (conj eq_refl eq_refl)) as D. vv.
      exists (TScalar v DoubleQuoted), false. split; [split; [reflexivity|]; exists t; split; [exact Ht|]; exists v; auto|].
      steps (K _ _ Hc).
    + destruct X as [X|X]; [left; rewrite X; unfold structural; cbn; tauto|right]. intros k lb r ((_ & t1 & Et & v & _ & D) & _). rewrite Ht in Et. injection Et as <-. exact (X v r D).
  - destruct Hf as (Po & Nd & Nz). unfold fetch_plain_scalar. v1. apply sw_save; [ref|]. intros ks K. v1. v1. v1. v1. v1.
    assert (X := plain_exact (in_flow s) (s_indent s) (s_cur s)). change (c_text (s_cur s)) with (ctext s) in X. change (c_mark (s_cur s)) with (smark s) in X.
    destruct (opens_plain _ _ Po) as (O1 & O2 & O3). specialize (X O1 O2 O3).
    assert (X' := X ltac:(intros C; apply Nd; rewrite C; reflexivity)). clear X.
    assert (Hcol : in_flow s = true \/ (s_indent s <= Z.of_N (m_column (smark s)))%Z).
    { destruct (in_flow s) eqn:F; [left; reflexivity|right]. apply (b_col _ _ _ _ B). apply flow_zero. exact F. }
    specialize (X' Hcol). unfold sw at 1, lift. cbn [s_cur set_keys set_allowed s_indent]. change (in_flow (set_allowed (set_keys s ks) false)) with (in_flow s).
    destruct (scan_plain_scalar (in_flow s) (s_indent s) (s_cur s)) as [[tk lb] c'|e| |]; auto.
    + destruct X' as (v & e & -> & X). pose proof (proj2 (X v (c_text c') lb) (conj eq_refl (conj eq_refl eq_refl))) as D. v1. cbn [fst snd].
      destruct lb; vv; (exists (TScalar (utf8 v) Plain); eexists; split; [exists v; split; [reflexivity|exact D]|];
        steps (K _ _ Hc)).
    + destruct X' as [X|[_ X]]; [left; rewrite X; unfold structural; cbn; tauto|right]. intros k lb r ((v & _ & D) & _). exact (X v r lb D).
  - right. intros k lb r (H & _). exact H.
Qed.
End Fetch.
