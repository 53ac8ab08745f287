(* The tokens the scanner hands out stand where their marks say (C75). *)
From Verif Require Import Base ReaderModel Utf8Spec CharSpec Types CursorModel ScanModel ScannerModel CursorProofs ScanProofs ScanQuoted ScannerSpec ScannerInv ScannerFetch ScannerBranch ScannerBlock ScannerLoop ScannerFinal RoundSpec LexSpec GapExact QuotedExact PlainExact BlockExact TagLex LexemeSpec Lexemes LexemeRun LexemeLoop SpeltSpec SpeltEnds.

Definition slim (y : token) : Prop := written y = false /\ t_start y = t_end y.
Definition grows (q q' : list token) : Prop := forall y, In y q' -> In y q \/ slim y.
Lemma grows_refl q : grows q q. Proof. intros y H. auto. Qed.
Lemma grows_trans q1 q2 q3 : grows q1 q2 -> grows q2 q3 -> grows q1 q3.
Proof. intros A B y H. destruct (B y H) as [K|K]; auto. Qed.
Lemma grows_snoc q x : slim x -> grows q (q ++ [x]).
Proof. intros S y H. apply in_app_or in H as [H|[<-|[]]]; auto. Qed.
Lemma grows_insert i q x : slim x -> grows q (firstn i q ++ x :: skipn i q).
Proof.
  intros S y H. apply in_app_or in H as [H|[<-|H]]; auto.
  - left. rewrite <- (firstn_skipn i q). apply in_or_app. auto.
  - left. rewrite <- (firstn_skipn i q). apply in_or_app. auto.
Qed.
Lemma unroll_grows m c : forall is i q i' is' q', unroll m c i is q = Some (i', is', q') -> grows q q'.
Proof.
  induction is as [|j is IH]; intros i q i' is' q'; cbn [unroll]; destruct (c <? i)%Z; try discriminate.
  - intros [= <- <- <-]. apply grows_refl.
  - intros H. apply IH in H. eapply grows_trans; [|exact H]. apply grows_snoc. split; reflexivity.
  - intros [= <- <- <-]. apply grows_refl.
Qed.
Definition any (e : serr) : Prop := True.
Lemma any_ok : forall e, structural (se_problem e) -> any e. Proof. intros; exact I. Qed.

Lemma z_unroll s c (Q : unit -> sc -> Prop) :
  (forall s', s_cur s' = s_cur s -> s_flow s' = s_flow s -> grows (s_tokens s) (s_tokens s') -> Q tt s') -> sw (unroll_indent c) s Q any.
Proof.
  intros HQ. unfold sw, unroll_indent. destruct (in_flow s); [apply HQ; auto using grows_refl|].
  destruct (unroll (smark s) c (s_indent s) (s_indents s) (s_tokens s)) as [[[i is] q]|] eqn:U; [|exact I]. apply HQ; auto. exact (unroll_grows _ _ _ _ _ _ _ _ U).
Qed.
Lemma z_reset s (Q : unit -> sc -> Prop) :
  (forall s', s_cur s' = s_cur s -> s_flow s' = s_flow s -> grows (s_tokens s) (s_tokens s') -> Q tt s') -> sw reset_block s Q any.
Proof. intros HQ. unfold reset_block. v1. apply z_unroll. intros s1 A1 A2 A3. v1. apply sw_remove; [exact any_ok|]. intros ks _. v1. apply HQ; auto. Qed.
Lemma z_roll s c n t m (Q : unit -> sc -> Prop) : written (mkToken t m m false) = false ->
  (forall s', s_cur s' = s_cur s -> s_flow s' = s_flow s -> grows (s_tokens s) (s_tokens s') -> Q tt s') -> sw (roll_indent c n t m) s Q any.
Proof.
  intros W HQ. unfold roll_indent. v1. v1. destruct (in_flow s); [v1; apply HQ; auto using grows_refl|].
  destruct (s_indent s <? Z.of_N c)%Z; [|v1; apply HQ; auto using grows_refl]. destruct (INT_MAX <? c); [exact I|].
  v1. v1. destruct n as [n|].
  - unfold sw, queue_insert. destruct (_ && _); [|exact I]. apply HQ; auto. cbn [s_tokens set_tokens set_indents]. apply grows_insert. split; [exact W|reflexivity].
  - v1. apply HQ; auto. cbn [s_tokens set_tokens set_indents]. apply grows_snoc. split; [exact W|reflexivity].
Qed.
Lemma z_block_start p t s (Q : unit -> sc -> Prop) : written (mkToken t (smark s) (smark s) false) = false ->
  (forall s', s_cur s' = s_cur s -> s_flow s' = s_flow s -> grows (s_tokens s) (s_tokens s') -> Q tt s') -> sw (block_start p t) s Q any.
Proof.
  intros W HQ. unfold block_start. v1. v1. destruct (in_flow s); [v1; apply HQ; auto using grows_refl|].
  destruct (s_allowed s); cbn [negb]; [|exact I]. apply z_roll; [exact W|]. exact HQ.
Qed.

(* the end mark [e] of the token [k] read from [t] to [t'] *)
Definition ended (k : tok) (t : list N) (m : mark) (t' : list N) (m' e : mark) : Prop :=
  match k with
  | TScalar _ Plain => behind t m e t'
  | TScalar _ Literal | TScalar _ Folded => lend t m e t'
  | TVersion _ _ | TTagDirective _ _ => exists r1, directive_text (tl t) k r1 /\ line_end r1 t' /\ adv t m r1 e
  | _ => e = m'
  end.
(* what a branch adds to the queue *)
Definition added (b : branch) (s s' : sc) : Prop := forall y, In y (s_tokens s') -> In y (s_tokens s) \/ slim y \/
  exists lb, lex_of b (in_flow s) (s_indent s) (ctext s) (t_tok y) lb (ctext s') /\ t_start y = smark s /\ ended (t_tok y) (ctext s) (smark s) (ctext s') (smark s') (t_end y).
Lemma added_one b s q x s' : grows (s_tokens s) q -> s_tokens s' = q ++ [x] ->
  (exists lb, lex_of b (in_flow s) (s_indent s) (ctext s) (t_tok x) lb (ctext s') /\ t_start x = smark s /\ ended (t_tok x) (ctext s) (smark s) (ctext s') (smark s') (t_end x)) -> added b s s'.
Proof. intros G E H y I. rewrite E in I. apply in_app_or in I as [I|[<-|[]]]; [destruct (G y I); auto|auto]. Qed.

Lemma adv_suffix t m t' m' : adv t m t' m' -> exists u, t = u ++ t'.
Proof.
  intros A. induction A as [t m|x t m t' m' B A IH|t m t' m' A IH|x t m t' m' B N A IH]; [exists []; reflexivity|..]; destruct IH as [u ->]; [exists (x :: u)|exists (0xD :: 0xA :: u)|exists (x :: u)]; reflexivity.
Qed.
Section S.
Variable T : list N.
Notation at_branch := (at_branch T).
Notation core := (core T).
Notation finished := (finished T).
Notation fetched := (fetched T).
Lemma branch_added es all s b : at_branch es all s -> choose_ok (in_flow s) (ctext s) (smark s) b -> b = kind (in_flow s) (m_column (smark s) =? 0) (ctext s) -> b <> BStreamEnd ->
  sw (fetch_branch b) s (fun _ s' => added b s s') any.
Proof.
  intros B Hb Eb Nb. assert (H1 : hold 1 (ctext s) (smark s) (s_cur s)) by exact (branch_hold1 _ _ _ _ B). pose proof (kind_head (in_flow s) (m_column (smark s) =? 0) (ctext s)) as Hh. pose proof (kind_facts (in_flow s) (m_column (smark s) =? 0) (ctext s)) as Hf.
  rewrite <- Eb in Hh, Hf. assert (Hu : (1 <= c_unread (s_cur s))%nat) by (destruct (branch_hold1 _ _ _ _ B) as (_ & _ & U); lia).
  Ltac one q := eapply (added_one _ _ q); [|reflexivity|].
  destruct b; cbn [fetch_branch head_of] in *; try specialize (Hh _ eq_refl); [contradiction Nb; reflexivity|..]; clear Nb Eb.
  - (* directive *)
    unfold fetch_directive. v1. apply z_reset. intros s1 A1 A2 A3. v1.
    destruct Hh as [t Ht]. assert (Hc1 : c_text (s_cur s1) = 0x25 :: t) by (rewrite A1; exact Ht).
    pose proof (directive_exact (s_cur s1) 0x25 t ltac:(rewrite A1; exact Hu) Hc1) as X. pose proof (e_directive (s_cur s1) 0x25 t ltac:(rewrite A1; exact Hu) Hc1 ltac:(discriminate) eq_refl) as Y. unfold wp in Y. unfold sw at 1, lift.
    destruct (scan_directive (s_cur s1)) as [tk c'|e| |]; try contradiction; try exact I.
    destruct X as (d & e & -> & X). destruct (proj2 (X d (c_text c')) (conj eq_refl eq_refl)) as (r1 & D1 & D2). vv.
    assert (Dk := directive_kinds _ _ _ D1). one (s_tokens s1); [exact A3|]. exists false. split; [split; [reflexivity|]; exists t; split; [exact Ht|]; exists r1; auto|].
    split; [cbn [t_start]; rewrite A1; reflexivity|]. cbn [t_tok t_end] in *. rewrite A1 in Y. assert (Et : tl (ctext s) = t) by (rewrite Ht; reflexivity). rewrite <- Et in Y. destruct d; try contradiction; exact Y.
  - (* --- *)
    destruct Hf as (_ & x & q & Eq & _). destruct Hh as [q' Hh]. rewrite Hh in Eq. injection Eq as <- Eq. subst q'.
    unfold fetch_document_indicator. v1. apply z_reset. intros s1 A1 A2 A3. apply sw_chars. intros c' pre P1 P2 P3.
    rewrite A1 in P1. change (c_text (s_cur s)) with (ctext s) in P1. rewrite Hh in P1. destruct pre as [|? [|? [|? [|? ?]]]]; try discriminate P2. cbn in P1. injection P1 as <- <- <- P1.
    one (s_tokens s1); [exact A3|]. exists false. split; [split; [reflexivity|]; split; [rewrite Hh, P1; reflexivity|reflexivity]|]. split; [cbn [t_start]; unfold smark; rewrite A1; reflexivity|reflexivity].
  - (* ... *)
    destruct Hf as (_ & x & q & Eq & _). destruct Hh as [q' Hh]. rewrite Hh in Eq. injection Eq as <- Eq. subst q'.
    unfold fetch_document_indicator. v1. apply z_reset. intros s1 A1 A2 A3. apply sw_chars. intros c' pre P1 P2 P3.
    rewrite A1 in P1. change (c_text (s_cur s)) with (ctext s) in P1. rewrite Hh in P1. destruct pre as [|? [|? [|? [|? ?]]]]; try discriminate P2. cbn in P1. injection P1 as <- <- <- P1.
    one (s_tokens s1); [exact A3|]. exists false. split; [split; [reflexivity|]; split; [rewrite Hh, P1; reflexivity|reflexivity]|]. split; [cbn [t_start]; unfold smark; rewrite A1; reflexivity|reflexivity].
  - unfold fetch_flow_collection_start. v1. apply sw_save; [exact any_ok|]. intros ks _. v1. apply sw_increase; [exact any_ok|]. intros ks' _. v1. v1. apply sw_chars. intros c' pre P1 P2 P3. apply (one_char _ _ _ _ P1 P2) in Hh.
    one (s_tokens s); [apply grows_refl|]. exists false. split; [exact (conj eq_refl (conj Hh eq_refl))|]. split; reflexivity.
  - unfold fetch_flow_collection_start. v1. apply sw_save; [exact any_ok|]. intros ks _. v1. apply sw_increase; [exact any_ok|]. intros ks' _. v1. v1. apply sw_chars. intros c' pre P1 P2 P3. apply (one_char _ _ _ _ P1 P2) in Hh.
    one (s_tokens s); [apply grows_refl|]. exists false. split; [exact (conj eq_refl (conj Hh eq_refl))|]. split; reflexivity.
  - unfold fetch_flow_collection_end. v1. apply sw_remove; [exact any_ok|]. intros ks _. v1. apply sw_decrease. intros ks' _. v1. v1. apply sw_chars. intros c' pre P1 P2 P3. apply (one_char _ _ _ _ P1 P2) in Hh.
    one (s_tokens s); [apply grows_refl|]. exists false. split; [exact (conj eq_refl (conj Hh eq_refl))|]. split; reflexivity.
  - unfold fetch_flow_collection_end. v1. apply sw_remove; [exact any_ok|]. intros ks _. v1. apply sw_decrease. intros ks' _. v1. v1. apply sw_chars. intros c' pre P1 P2 P3. apply (one_char _ _ _ _ P1 P2) in Hh.
    one (s_tokens s); [apply grows_refl|]. exists false. split; [exact (conj eq_refl (conj Hh eq_refl))|]. split; reflexivity.
  - unfold fetch_flow_entry. v1. apply sw_remove; [exact any_ok|]. intros ks _. v1. v1. apply sw_chars. intros c' pre P1 P2 P3. apply (one_char _ _ _ _ P1 P2) in Hh.
    one (s_tokens s); [apply grows_refl|]. exists false. split; [exact (conj eq_refl (conj Hh eq_refl))|]. split; reflexivity.
  - unfold fetch_block_entry. v1. apply z_block_start; [reflexivity|]. intros s1 A1 A2 A3. v1. apply sw_remove; [exact any_ok|]. intros ks _. v1. v1.
    apply sw_chars. intros c' pre P1 P2 P3. cbn [s_cur set_keys set_allowed] in P1. rewrite A1 in P1. apply (one_char _ _ _ _ P1 P2) in Hh.
    one (s_tokens s1); [exact A3|]. exists false. split; [exact (conj eq_refl (conj Hh eq_refl))|]. split; [cbn [t_start]; unfold smark; cbn [s_cur set_keys set_allowed]; rewrite A1; reflexivity|reflexivity].
  - unfold fetch_key. v1. apply z_block_start; [reflexivity|]. intros s1 A1 A2 A3. v1. apply sw_remove; [exact any_ok|]. intros ks _. v1. v1. v1. v1.
    apply sw_chars. intros c' pre P1 P2 P3. cbn [s_cur set_keys set_allowed] in P1. rewrite A1 in P1. apply (one_char _ _ _ _ P1 P2) in Hh.
    one (s_tokens s1); [exact A3|]. exists false. split; [exact (conj eq_refl (conj Hh eq_refl))|]. split; [cbn [t_start]; unfold smark; cbn [s_cur set_keys set_allowed]; rewrite A1; reflexivity|reflexivity].
  - unfold fetch_value. v1. v1. destruct (s_keys s) as [|k ks] eqn:Ek; [exact I|].
    v1. destruct (k_possible k) eqn:Pk.
    + v1. unfold sw at 1, queue_insert. destruct (_ && _); [|exact I].
      v1. apply z_roll; [reflexivity|]. intros s1 A1 A2 A3. v1. v1. v1. apply sw_chars. intros c' pre P1 P2 P3.
      cbn [s_cur set_keys set_allowed set_tokens] in P1, A1. rewrite A1 in P1. apply (one_char _ _ _ _ P1 P2) in Hh.
      one (s_tokens s1).
      { eapply grows_trans; [|exact A3]. cbn [s_tokens set_tokens]. apply grows_insert. split; [unfold written; cbn; apply N.ltb_irrefl|reflexivity]. }
      exists false. split; [exact (conj eq_refl (conj Hh eq_refl))|]. split; [cbn [t_start]; unfold smark; cbn [s_cur set_keys set_allowed]; rewrite A1; reflexivity|reflexivity].
    + v1. apply z_block_start; [reflexivity|]. intros s1 A1 A2 A3. v1.
      apply sw_chars. intros c' pre P1 P2 P3. cbn [s_cur set_keys set_allowed] in P1. rewrite A1 in P1. apply (one_char _ _ _ _ P1 P2) in Hh.
      one (s_tokens s1); [exact A3|]. exists false. split; [exact (conj eq_refl (conj Hh eq_refl))|]. split; [cbn [t_start]; unfold smark; cbn [s_cur set_keys set_allowed]; rewrite A1; reflexivity|reflexivity].
  - unfold fetch_anchor. v1. apply sw_save; [exact any_ok|]. intros ks _. v1. v1. v1. destruct Hh as [t Ht].
    pose proof (anchor_exact false (s_cur s) 0x2A t Hu Ht) as X. unfold sw at 1, lift. cbn [s_cur set_keys set_allowed].
    destruct (scan_anchor false (s_cur s)) as [tk c'|e| |]; try contradiction; try exact I.
    destruct X as (n & -> & X). pose proof (proj2 (X n (c_text c')) (conj eq_refl eq_refl)) as D. vv.
    one (s_tokens s); [apply grows_refl|]. exists false. split; [split; [reflexivity|]; exists t; split; [exact Ht|]; exists n; auto|]. split; reflexivity.
  - unfold fetch_anchor. v1. apply sw_save; [exact any_ok|]. intros ks _. v1. v1. v1. destruct Hh as [t Ht].
    pose proof (anchor_exact true (s_cur s) 0x26 t Hu Ht) as X. unfold sw at 1, lift. cbn [s_cur set_keys set_allowed].
    destruct (scan_anchor true (s_cur s)) as [tk c'|e| |]; try contradiction; try exact I.
    destruct X as (n & -> & X). pose proof (proj2 (X n (c_text c')) (conj eq_refl eq_refl)) as D. vv.
    one (s_tokens s); [apply grows_refl|]. exists false. split; [split; [reflexivity|]; exists t; split; [exact Ht|]; exists n; auto|]. split; reflexivity.
  - unfold fetch_tag. v1. apply sw_save; [exact any_ok|]. intros ks _. v1. v1. v1. v1. v1. destruct Hh as [t Ht].
    pose proof (tag_exact (in_flow s) (s_cur s) t Ht) as X. unfold sw at 1, lift. cbn [s_cur set_keys set_allowed]. change (in_flow (set_allowed (set_keys s ks) false)) with (in_flow s).
    destruct (scan_tag (in_flow s) (s_cur s)) as [tk c'|e| |]; try contradiction; try exact I.
    destruct X as (h & n & -> & X). pose proof (proj2 (X h n (c_text c')) (conj eq_refl (conj eq_refl eq_refl))) as D. vv.
    one (s_tokens s); [apply grows_refl|]. exists false. split; [split; [reflexivity|]; exists t; split; [exact Ht|]; exists h, n; auto|]. split; reflexivity.
  - unfold fetch_block_scalar. v1. apply sw_remove; [exact any_ok|]. intros ks _. v1. v1. v1. v1. v1. destruct Hh as [t Ht].
    pose proof (block_exact true (s_indent s) (s_cur s) 0x7C t Hu Ht) as X. unfold sw at 1, lift. cbn [s_cur set_keys set_allowed s_indent].
    pose proof (e_block (s_indent s) true _ _ _ H1 ltac:(rewrite Ht; discriminate) ltac:(rewrite Ht; reflexivity)) as Y. unfold wp in Y.
    destruct (scan_block_scalar (s_indent s) true (s_cur s)) as [tk c'|e| |]; try contradiction; try exact I.
    destruct X as (v & e & -> & X). pose proof (proj2 (X v (c_text c')) (conj eq_refl eq_refl)) as D. vv.
    one (s_tokens s); [apply grows_refl|]. exists false. split; [split; [reflexivity|]; exists t; split; [exact Ht|]; exists v; auto|]. split; [reflexivity|exact Y].
  - unfold fetch_block_scalar. v1. apply sw_remove; [exact any_ok|]. intros ks _. v1. v1. v1. v1. v1. destruct Hh as [t Ht].
    pose proof (block_exact false (s_indent s) (s_cur s) 0x3E t Hu Ht) as X. unfold sw at 1, lift. cbn [s_cur set_keys set_allowed s_indent].
    pose proof (e_block (s_indent s) false _ _ _ H1 ltac:(rewrite Ht; discriminate) ltac:(rewrite Ht; reflexivity)) as Y. unfold wp in Y.
    destruct (scan_block_scalar (s_indent s) false (s_cur s)) as [tk c'|e| |]; try contradiction; try exact I.
    destruct X as (v & e & -> & X). pose proof (proj2 (X v (c_text c')) (conj eq_refl eq_refl)) as D. vv.
    one (s_tokens s); [apply grows_refl|]. exists false. split; [split; [reflexivity|]; exists t; split; [exact Ht|]; exists v; auto|]. split; [reflexivity|exact Y].
  - unfold fetch_flow_scalar. v1. apply sw_save; [exact any_ok|]. intros ks _. v1. v1. v1. destruct Hh as [t Ht].
    pose proof (quoted_exactly true (s_cur s) t Hu Ht) as X. unfold sw at 1, lift. cbn [s_cur set_keys set_allowed].
    destruct (scan_flow_scalar true (s_cur s)) as [tk c'|e| |]; try contradiction; try exact I.
    destruct X as (v & -> & X). pose proof (proj2 (X v (c_text c')) (conj eq_refl eq_refl)) as D. vv.
    one (s_tokens s); [apply grows_refl|]. exists false. split; [split; [reflexivity|]; exists t; split; [exact Ht|]; exists v; auto|]. split; reflexivity.
  - unfold fetch_flow_scalar. v1. apply sw_save; [exact any_ok|]. intros ks _. v1. v1. v1. destruct Hh as [t Ht].
    pose proof (quoted_exactly false (s_cur s) t Hu Ht) as X. unfold sw at 1, lift. cbn [s_cur set_keys set_allowed].
    destruct (scan_flow_scalar false (s_cur s)) as [tk c'|e| |]; try contradiction; try exact I.
    destruct X as (v & -> & X). pose proof (proj2 (X v (c_text c')) (conj eq_refl eq_refl)) as D. vv.
    one (s_tokens s); [apply grows_refl|]. exists false. split; [split; [reflexivity|]; exists t; split; [exact Ht|]; exists v; auto|]. split; reflexivity.
  - destruct Hf as (Po & Nd & Nz). unfold fetch_plain_scalar. v1. apply sw_save; [exact any_ok|]. intros ks _. v1. v1. v1. v1. v1.
    assert (X := plain_exact (in_flow s) (s_indent s) (s_cur s)). change (c_text (s_cur s)) with (ctext s) in X. change (c_mark (s_cur s)) with (smark s) in X.
    destruct (opens_plain _ _ Po) as (O1 & O2 & O3). specialize (X O1 O2 O3).
    assert (X' := X ltac:(intros C; apply Nd; rewrite C; reflexivity)). clear X.
    assert (Hcol : in_flow s = true \/ (s_indent s <= Z.of_N (m_column (smark s)))%Z).
    { destruct (in_flow s) eqn:F; [left; reflexivity|right]. apply (b_col _ _ _ _ B). apply flow_zero. exact F. }
    specialize (X' Hcol). unfold sw at 1, lift. cbn [s_cur set_keys set_allowed s_indent]. change (in_flow (set_allowed (set_keys s ks) false)) with (in_flow s).
    cbn [choose_ok] in Hb. pose proof (e_plain (in_flow s) (s_indent s) _ _ _ H1 (proj1 Hb) (proj1 (proj2 Hb)) (proj2 (proj2 Hb))) as Y. unfold wp in Y.
    destruct (scan_plain_scalar (in_flow s) (s_indent s) (s_cur s)) as [[tk lb] c'|e| |]; try contradiction; try exact I.
    destruct X' as (v & e & -> & X). pose proof (proj2 (X v (c_text c') lb) (conj eq_refl (conj eq_refl eq_refl))) as D. v1. cbn [fst snd].
    destruct lb; vv; (one (s_tokens s); [apply grows_refl|]; eexists; split; [exists v; split; [reflexivity|exact D]|split; [reflexivity|exact Y]]).
  - exact I.
Qed.

Notation eend := (eend T).
Definition pl (q : list token) : Prop := forall y, In y q -> in_place T y.
Lemma slim_in_place y : slim y -> in_place T y.
Proof. intros [W E]. unfold in_place. rewrite W. exact E. Qed.
Lemma grows_pl q q' : grows q q' -> pl q -> pl q'.
Proof. intros G P y I. destruct (G y I) as [K|K]; [auto|apply slim_in_place, K]. Qed.
Definition any_err (e : serr) : Prop := True.
Definition next_pl (es : list token) (s s' : sc) : Prop := (fetched es s s' \/ finished es s') /\ pl (s_tokens s').

Lemma lex_written b flow indent t k lb r : lex_of b flow indent t k lb r ->
  match k with TStreamStart _ | TStreamEnd | TBlockSeqStart | TBlockMapStart | TBlockEnd => False | _ => True end.
Proof.
  intros L.
  destruct b; cbn [lex_of] in L; try contradiction.
  all: try (destruct L as (_ & _ & ->); exact I).
  - destruct L as (_ & t1 & _ & r1 & D1 & _). apply directive_kinds in D1. destruct k; tauto.
  - destruct L as (_ & t1 & _ & n & -> & _); exact I.
  - destruct L as (_ & t1 & _ & n & -> & _); exact I.
  - destruct L as (_ & t1 & _ & n & n' & -> & _); exact I.
  - destruct L as (_ & t1 & _ & n & -> & _); exact I.
  - destruct L as (_ & t1 & _ & n & -> & _); exact I.
  - destruct L as (_ & t1 & _ & n & -> & _); exact I.
  - destruct L as (_ & t1 & _ & n & -> & _); exact I.
  - destruct L as (v & -> & _); exact I.
Qed.
Lemma added_pl es all s s' b : core 0 es all s -> fetched es s s' -> b = kind (in_flow s) (m_column (smark s) =? 0) (ctext s) -> pl (s_tokens s) -> added b s s' -> pl (s_tokens s').
Proof.
  intros C [(all' & C' & _) Ln] Eb P A y I. destruct (A y I) as [K|[K|(lb & L & S1 & S2)]]; [auto|apply slim_in_place, K|].
  assert (W : written y = true).
  { pose proof (lex_written _ _ _ _ _ _ _ L) as K. unfold written. destruct (t_tok y) eqn:Ey; try contradiction; try reflexivity.
    apply N.ltb_lt. cbn [ended] in S2. rewrite S1, S2. pose proof (ScannerInv.adv_index _ _ _ _ (c_pos _ _ _ _ _ C)). pose proof (ScannerInv.adv_index _ _ _ _ (c_pos _ _ _ _ _ C')). unfold nlen, smark, ctext in *. lia. }
  unfold in_place. rewrite W. pose proof (c_pos _ _ _ _ _ C) as Pp. destruct (adv_position T _ _ _ _ Pp 0) as (j & Hj & Et & _); auto; [lia|].
  exists (in_flow s), (s_indent s), (firstn j T), (ctext s), lb, (ctext s'). split; [unfold ctext; rewrite Et; symmetry; apply firstn_skipn|].
  split; [rewrite S1; exact (core_place T _ _ _ C)|]. split.
  - apply lexeme_kind. rewrite S1, <- Eb. exact L.
  - assert (Pl : forall u e, adv (ctext s) (smark s) u e -> e = place T u) by (intros u e Ad; apply adv_place; eapply adv_trans; [exact Pp|exact Ad]).
    assert (Pe := core_place T _ _ _ C'). clear L W. destruct (t_tok y) as [| |ma mi|h p| | | | | | | | | | | | | | | | |v [| | | | |]]; cbn [ended ends_at] in *; try (rewrite S2; exact Pe).
    + destruct S2 as (r1 & D & Le & Ad). exists r1. auto.
    + destruct S2 as (r1 & D & Le & Ad). exists r1. auto.
    + destruct S2 as (u & x & g & Eu & X & F & Ad). exists u, x, g. auto.
    + destruct S2 as (g & Ad & F & Bo). destruct (adv_suffix _ _ _ _ Ad) as [u Eu]. exists u, g. auto.
    + destruct S2 as (g & Ad & F & Bo). destruct (adv_suffix _ _ _ _ Ad) as [u Eu]. exists u, g. auto.
Qed.
Lemma branch_pl es all s b : at_branch es all s -> choose_ok (in_flow s) (ctext s) (smark s) b -> b = kind (in_flow s) (m_column (smark s) =? 0) (ctext s) ->
  pl (s_tokens s) -> swp (fetch_branch b) s (fun _ s' => next_pl es s s') any_err.
Proof.
  intros B Hb Eb P. destruct (branch_eq_end b) as [->|Nb].
  - cbn [fetch_branch]. eapply swp_mono; [eapply swp_both; [eapply fetch_stream_end_ok; exact B|]| |].
    + instantiate (1 := any). instantiate (1 := fun _ s' => pl (s_tokens s')).
      unfold fetch_stream_end. v1. unfold sw at 1, lift, force_line. v1. apply z_reset. intros s1 A1 A2 A3. vv.
      cbn [s_tokens set_tokens]. eapply grows_pl; [|exact P]. eapply grows_trans; [exact A3|]. apply grows_snoc. split; reflexivity.
    + intros _ s' [F W]. split; [right; exact F|exact W].
    + intros; exact I.
  - eapply swp_mono; [eapply swp_both; [eapply fetch_branch_ok1; eauto|eapply branch_added; eauto]| |intros; exact I].
    intros _ s' [F A]. split; [left; exact F|]. eapply added_pl; [exact (b_core _ _ _ _ B)|exact F|exact Eb|exact P|exact A].
Qed.
Lemma fetch_next_pl es all s : core 0 es all s -> pl (s_tokens s) ->
  swp fetch_next_token s (fun _ s' => next_pl es s s') any_err.
Proof.
  intros C0 P0. unfold fetch_next_token. apply swp_bind, swp_lift.
  eapply wp_refine; [apply (cache_core T _ _ _ 1 C0)| |intros; exact I].
  intros _ c1 (C1 & H1). cbv beta.
  assert (X1 : ctext (set_cur s c1) = ctext s) by (destruct H1 as (E & _); exact E).
  apply hold_self in H1. w1. w1. rewrite (c_started _ _ _ _ _ C1). cbn [negb].
  apply swp_bind, swp_lift.
  eapply wp_refine; [eapply (p_scan_to_next_token (ctext (set_cur s c1)) (smark (set_cur s c1)) None); [apply pos_start; exact H1|]| |intros; exact I].
  { intros a t' m' c' P. intros. exact (ex_intro _ t' (ex_intro _ m' P)). }
  cbv beta. intros a c2 (t' & m' & P2). w1. w1.
  destruct (pos_core _ _ _ _ _ _ _ _ _ C1 P2) as (_ & _ & A2).
  assert (C2 : core 0 es all (set_allowed (set_cur (set_cur s c1) c2) a)).
  { apply core_allowed, core_cur; [exact C1|exact A2]. }
  assert (X2 : (length (ctext (set_allowed (set_cur (set_cur s c1) c2) a)) <= length (ctext s))%nat).
  { rewrite <- X1. apply adv_len in A2. exact A2. }
  assert (W4 : s_tokens (set_allowed (set_cur (set_cur s c1) c2) a) = s_tokens s) by reflexivity.
  set (s2 := set_allowed (set_cur (set_cur s c1) c2) a) in *. clearbody s2. rewrite <- W4 in P0. clear H1 X1 P2 A2 C1.
  apply swp_bind. unfold swp at 1, stale_simple_keys. destruct (stale (smark s2) (s_keys s2)) as [ks|m] eqn:St; [|exact I].
  destruct (core_stale _ _ _ _ _ _ C2 St) as [C3 Fr3].
  w1. w1. apply swp_bind.
  assert (Fin : forall all4 s4, core 0 es all4 s4 -> fresh s4 -> (s_flow s4 = 0 -> (s_indent s4 <= Z.of_N (m_column (smark s4)))%Z) ->
     in_flow s4 = in_flow (set_keys s2 ks) -> (length (ctext s4) <= length (ctext s))%nat -> pl (s_tokens s4) ->
     swp (lift (cache 4) ~;; b <~ lift (choose (in_flow (set_keys s2 ks)));; fetch_branch b) s4 (fun _ s' => next_pl es s s') any_err).
  { intros all4 s4 C4 Fr4 I4 F4 X4 P4. apply swp_bind, swp_lift.
    eapply wp_refine; [apply (cache_core T _ _ _ 4 C4)| |intros; exact I].
    intros _ c5 (C5 & H5). cbv beta.
    assert (X5 : ctext (set_cur s4 c5) = ctext s4) by (destruct H5 as (E & _); exact E).
    assert (M5 : smark (set_cur s4 c5) = smark s4) by (destruct H5 as (_ & E & _); exact E).
    apply hold_self in H5. apply swp_bind, swp_lift. rewrite <- F4.
    eapply wp_refine; [eapply wp_pair; [eapply (p_choose (c_text c5) (c_mark c5) None (in_flow s4)); [apply pos_start; exact H5|]|]| |intros; exact I].
    - intros b Hb. refine (_ : (fun b c => choose_ok (in_flow s4) (c_text c5) (c_mark c5) b /\ c = c5) b c5). auto.
    - instantiate (1 := fun _ => True). instantiate (1 := fun b _ => b = kind (in_flow s4) (m_column (c_mark c5) =? 0) (c_text c5)).
      assert (K : wp (choose (in_flow s4)) c5 (fun b _ => b = kind (in_flow s4) (m_column (c_mark c5) =? 0) (c_text c5)) (epos (c_text c5) (c_mark c5) None)).
      { eapply kind_choose; [apply pos_start; exact H5|reflexivity]. }
      unfold wp in K. change (s_cur (set_cur s4 c5)) with c5. destruct (choose (in_flow s4) c5); auto.
    - cbv beta. intros b c [[Hb ->] Kb]. change (set_cur (set_cur s4 c5) c5) with (set_cur s4 c5).
      eapply swp_mono; [eapply (branch_pl es all4)| |auto].
      + constructor; [exact C5| | |exact H5].
        * unfold fresh in *. rewrite M5. exact Fr4.
        * rewrite M5. exact I4.
      + exact Hb.
      + exact Kb.
      + exact P4.
      + intros _ s' [[H|H] R']; (split; [|exact R']); [left|right; exact H]. destruct H as [H L]. split; [exact H|]. rewrite X5 in L. lia. }
  unfold swp at 1, unroll_indent. destruct (in_flow (set_keys s2 ks)) eqn:F3.
  - eapply Fin; [exact C3|exact Fr3| |exact F3|exact X2|exact P0].
    intros F0. unfold in_flow in F3. rewrite F0 in F3. discriminate.
  - destruct (core_unroll T 0 es all (set_keys s2 ks) (Z.of_N (m_column (smark (set_keys s2 ks)))) C3) as (i & is & q & ends & U & CU & Li & _).
    + lia.
    + exact F3.
    + intros k Ik Pk. eapply fresh_column; eauto.
    + rewrite U. apply unroll_grows in U. eapply Fin; [exact CU|exact Fr3| |exact F3|exact X2|]; [intros _; exact Li|].
      eapply grows_pl; [exact U|exact P0].
Qed.

Definition ready_pl (es : list token) (s : sc) : Prop :=
  s_tokens s <> [] /\ ((exists all, core 0 es all s /\ head_may_be_key s = false) \/ finished es s) /\ pl (s_tokens s).
Lemma finished_pl es s (Q : unit -> sc -> Prop) n :
  finished es s -> pl (s_tokens s) -> (forall s', ready_pl es s' -> Q tt s') -> swp (fetch_more_n (S n)) s Q any_err.
Proof.
  intros F R HQ. apply fetch_more_step. destruct (s_tokens s) as [|t q] eqn:Et; [destruct (fi_tokens _ _ _ F); exact Et|].
  apply swp_bind. apply swp_bind. unfold swp at 1, stale_simple_keys. destruct (stale (smark s) (s_keys s)) as [ks|m] eqn:S; [|exact I].
  assert (K := stale_all _ _ _ S (fun k I P => proj2 (fi_keys _ _ _ F k I P))).
  assert (H : head_may_be_key (set_keys s ks) = false).
  { unfold head_may_be_key. cbn. apply not_true_is_false. intros H. apply existsb_exists in H as (k & I & P).
    rewrite (K k I) in P. discriminate. }
  ww. rewrite H. unfold swp, modify. apply HQ. split; [cbn; congruence|]. split.
  - right. apply finished_avail. destruct F. constructor; auto. cbn. intros k I P. rewrite (K k I) in P. discriminate.
  - cbn. rewrite Et. exact R.
Qed.
Lemma fetch_more_pl n : forall es all s (Q : unit -> sc -> Prop), core 0 es all s -> pl (s_tokens s) -> (length (ctext s) + 2 <= n)%nat ->
  (forall s', ready_pl es s' -> Q tt s') -> swp (fetch_more_n n) s Q any_err.
Proof.
  induction n as [|n IH]; intros es all s Q C R Hn HQ; [lia|].
  assert (Step : forall s1, core 0 es all s1 -> pl (s_tokens s1) -> (length (ctext s1) <= length (ctext s))%nat ->
     swp (fetch_next_token ~;; fetch_more_n n) s1 Q any_err).
  { intros s1 C1 R1 L1. apply swp_bind. eapply swp_mono; [eapply fetch_next_pl; [exact C1|exact R1]| |auto]. intros _ s2 [[[(all' & C2 & _ & _) L2]|F2] R2].
    - eapply IH; [exact C2|exact R2|lia|exact HQ].
    - destruct n as [|n']; [lia|]. eapply finished_pl; eauto. }
  apply fetch_more_step. destruct (s_tokens s) as [|t q] eqn:Et.
  - w1. w1. apply Step; auto. rewrite Et. exact R.
  - apply swp_bind. apply swp_bind. unfold swp at 1, stale_simple_keys. destruct (stale (smark s) (s_keys s)) as [ks|m] eqn:S; [|exact I].
    destruct (core_stale _ _ _ _ _ _ C S) as [C1 _]. assert (R1 : pl (s_tokens (set_keys s ks))) by (cbn [s_tokens set_keys]; rewrite Et; exact R).
    ww. destruct (head_may_be_key (set_keys s ks)) eqn:H.
    + apply Step; auto.
    + unfold swp, modify. apply HQ. split; [cbn; congruence|]. split; [|exact R1]. left. exists all. split; [apply core_avail; exact C1|exact H].
Qed.

Inductive live_pl (e : encoding) (es : list token) (s : sc) : Prop :=
| lp_init nest bad plan : es = [] -> s = init_scanner e nest T bad plan -> live_pl e es s
| lp_run all : core 0 es all s -> starts e es -> s_avail s = false -> live_pl e es s
| lp_end : finished es s -> starts e es -> s_avail s = false -> live_pl e es s
| lp_done : s_ended s = true -> s_tokens s = [] -> live_pl e es s.

Lemma in_place_deep t d : in_place T (mkToken (t_tok t) (t_start t) (t_end t) d) <-> in_place T t.
Proof. reflexivity. Qed.
Lemma scan_step_pl e es s : live_pl e es s -> pl (s_tokens s) ->
  match scan s with
  | ScanToken t s' => live_pl e (es ++ [undeep t]) s' /\ pl (s_tokens s') /\ in_place T t
  | _ => True
  end.
Proof.
  assert (Rdy : forall es s, starts e es -> s_ended s = false -> s_error s = None -> s_avail s = false -> swp fetch_more_tokens s (fun _ s' => ready_pl es s') any_err ->
    match scan s with
    | ScanToken t s' => live_pl e (es ++ [undeep t]) s' /\ pl (s_tokens s') /\ in_place T t
    | _ => True
    end).
  { clear es s. intros es s St En Er Av H. unfold scan. rewrite En, Er, Av. cbn [orb]. unfold swp in H. destruct (fetch_more_tokens s) as [u s'|er| |]; try contradiction; [|exact I].
    destruct H as (Nt & H & P). destruct (s_tokens s') as [|t q] eqn:Et; [congruence|].
    split; [|split; [intros y Iy; apply P; right; exact Iy|apply in_place_deep, P; left; reflexivity]]. destruct H as [(all' & C' & Hk)|F].
    + destruct (dequeue_core _ _ _ _ _ _ C' Hk Et) as (C2 & E2 & D2).
      rewrite (c_ended _ _ _ _ _ C'), E2. cbn [orb]. apply lp_run with (all := all'); [|apply starts_app; exact St|reflexivity].
      unfold undeep. cbn. destruct t as [tt ts te td]. cbn in *. subst td. exact C2.
    + destruct (dequeue_finished T e _ _ _ _ F St Et) as (D2 & L2).
      assert (Eu : undeep (mkToken (t_tok t) (t_start t) (t_end t) (is_deep s')) = t) by (destruct t as [tt ts te td]; cbn in *; subst td; reflexivity).
      rewrite Eu.
      destruct L2 as [nest bad plan E1 _|all2 C2 S2 A2|F2 S2 A2|pre m E1 Cp En2 Et2 Er2].
      * destruct es; discriminate.
      * eapply lp_run; eauto.
      * apply lp_end; auto.
      * apply lp_done; auto. }
  intros L P. destruct L as [nest bad plan -> ->|all C St Av|F St Av|En Et].
  - unfold scan. cbn [s_ended s_error init_scanner s_avail orb]. pose proof (first_fetch T e nest bad plan) as H. unfold swp in H.
    destruct (fetch_more_tokens (init_scanner e nest T bad plan)) as [u s'|er| |]; try contradiction; [|exact I].
    destruct H as (C & Hk & Et). rewrite Et. destruct (dequeue_core _ _ _ _ _ _ C Hk Et) as (C' & _ & _). cbn [app] in *.
    rewrite (c_ended _ _ _ _ _ C). cbn. split; [|split; [intros y []|reflexivity]]. apply lp_run with (all := [start_tok e]); [exact C'|exists []; reflexivity|reflexivity].
  - apply Rdy; auto; [exact (c_ended _ _ _ _ _ C)|exact (c_error _ _ _ _ _ C)|].
    unfold swp, fetch_more_tokens. pose proof (fetch_more_pl (length (ctext s) + 3) es all s (fun _ s' => ready_pl es s') C P) as H. apply H; [lia|auto].
  - apply Rdy; auto; [exact (fi_ended _ _ _ F)|exact (fi_error _ _ _ F)|].
    unfold swp, fetch_more_tokens. replace (length (c_text (s_cur s)) + 3)%nat with (S (length (c_text (s_cur s)) + 2)) by lia.
    exact (finished_pl es s (fun _ s' => ready_pl es s') _ F P (fun s' H => H)).
  - unfold scan. rewrite En. exact I.
Qed.
Lemma scans_pl e nest bad plan l s : scans (init_scanner e nest T bad plan) l s -> pl l.
Proof.
  intros H. assert (G : forall s0 es, live_pl e es s0 -> pl (s_tokens s0) -> forall l s, scans s0 l s -> pl l).
  { clear. intros s0 es L P l s H. revert es L P. induction H as [s|s t s1 l s2 H1 H2 IH]; intros es L P; [intros y []|].
    pose proof (scan_step_pl _ _ _ L P) as K. rewrite H1 in K. destruct K as (K1 & K2 & K3). intros y [<-|Iy]; [exact K3|exact (IH _ K1 K2 y Iy)]. }
  apply (G _ [] ltac:(eapply lp_init; reflexivity) ltac:(intros y []) _ _ H).
Qed.
End S.

Lemma place_app a b : place (a ++ b) b = position (a ++ b) (length a).
Proof. unfold place. rewrite app_length. f_equal. lia. Qed.
Lemma indicator_place T x c : written x = true -> in_place T x ->
  In (t_tok x, c) [(TFlowSeqStart, 0x5B); (TFlowSeqEnd, 0x5D); (TFlowMapStart, 0x7B); (TFlowMapEnd, 0x7D); (TFlowEntry, 0x2C);
                   (TBlockEntry, 0x2D); (TKey, 0x3F); (TValue, 0x3A)] ->
  exists before after, T = before ++ c :: after /\
    t_start x = position T (length before) /\ t_end x = position T (S (length before)).
Proof.
  intros W P K. unfold in_place in P. rewrite W in P. destruct P as (flow & indent & before & t & lb & r & ET & Es & L & Ee).
  assert (Et : t = c :: r /\ t_end x = place T r).
  { apply lexeme_kind in L. revert L. generalize (kind flow (m_column (t_start x) =? 0) t). intros b L.
    assert (D : forall t1 r1, ~ directive_text t1 (t_tok x) r1).
    { intros t1 r1 D. apply directive_kinds in D. cbn [In] in K. repeat (destruct K as [K|K]; [injection K as K _; rewrite <- K in D; exact D|]). exact K. }
    destruct b; cbn [lex_of] in L; try contradiction.
    1: destruct L as (_ & t1 & _ & r1 & L & _); destruct (D _ _ L).
    all: cbn [In] in K; repeat match goal with H : _ /\ _ |- _ => destruct H | H : exists _, _ |- _ => destruct H end.
    all: repeat (destruct K as [K|K]; [assert (K1 := f_equal fst K); assert (K2 := f_equal snd K); cbn [fst snd] in K1, K2; first [exfalso; congruence|subst c; split; [assumption|rewrite <- K1 in Ee; exact Ee]]|]).
    all: destruct K. }
  destruct Et as [-> R]. exists before, r. rewrite Es, R, ET, place_app. split; [reflexivity|]. split; [reflexivity|].
  change (c :: r) with ([c] ++ r). rewrite app_assoc, place_app, app_length. f_equal. cbn. lia.
Qed.
Lemma quote_place T x v (single : bool) : in_place T x -> t_tok x = TScalar v (if single then SingleQuoted else DoubleQuoted) ->
  exists before body after, T = before ++ quote single :: body ++ quote single :: after /\
    t_start x = position T (length before) /\ t_end x = position T (S (S (length before + length body))).
Proof.
  intros P K. assert (W : written x = true) by (unfold written; rewrite K; reflexivity).
  unfold in_place in P. rewrite W in P. destruct P as (flow & indent & before & t & lb & r & ET & Es & L & Ee).
  assert (Et : exists u, t = quote single :: u ++ quote single :: r).
  { apply lexeme_kind in L. revert L. generalize (kind flow (m_column (t_start x) =? 0) t). intros b L. rewrite K in L.
    destruct b; cbn [lex_of] in L; try contradiction.
    1: destruct L as (_ & t1 & _ & r1 & L & _); destruct (directive_kinds _ _ _ L).
    all: try (destruct L as (_ & _ & L); discriminate L).
    all: destruct single; repeat match goal with H : _ /\ _ |- _ => destruct H | H : exists _, _ |- _ => destruct H end; try discriminate.
    all: match goal with H : quoted_text _ _ _ _ |- _ => destruct H as (u & v' & -> & _) end; exists u; assumption. }
  destruct Et as [u ->]. exists before, u, r. assert (R : t_end x = place T r) by (rewrite K in Ee; destruct single; exact Ee). rewrite Es, R, ET, place_app. split; [reflexivity|]. split; [reflexivity|].
  replace (before ++ quote single :: u ++ quote single :: r) with ((before ++ quote single :: u ++ [quote single]) ++ r).
  - rewrite place_app. f_equal. rewrite !app_length. cbn [length]. rewrite app_length. cbn. lia.
  - rewrite <- app_assoc. cbn [app]. rewrite <- app_assoc. reflexivity.
Qed.
Lemma plain_place T x v : in_place T x -> t_tok x = TScalar v Plain ->
  exists before word y after, T = before ++ word ++ y :: after /\ is_blankz (head (word ++ [y])) = false /\ is_blankz y = false /\
    t_start x = position T (length before) /\ t_end x = position T (S (length before + length word)).
Proof.
  intros P K. assert (W : written x = true) by (unfold written; rewrite K; reflexivity).
  unfold in_place in P. rewrite W in P. destruct P as (flow & indent & before & t & lb & r & ET & Es & L & Ee). rewrite K in L, Ee.
  assert (Hd : is_blankz (head t) = false).
  { inversion L as [t1 k r1 r2 F D E| | |y k r2 I| | | | | | | | | | |t1 v1 r2 lb1 [Pz _]]; subst; [destruct (directive_kinds _ _ _ D)| |exact Pz].
    unfold brackets in I. cbn [In] in I. repeat (destruct I as [I|I]; [discriminate I|]). destruct I. }
  destruct Ee as (u & y & g & -> & Y & _ & Ee). exists before, u, y, (g ++ r). split; [exact ET|]. split; [destruct u; exact Hd|]. split; [exact Y|].
  rewrite Es, Ee, ET, place_app. split; [reflexivity|].
  replace (before ++ u ++ y :: g ++ r) with ((before ++ u ++ [y]) ++ g ++ r).
  - rewrite place_app. f_equal. rewrite !app_length. cbn. lia.
  - rewrite <- !app_assoc. reflexivity.
Qed.
