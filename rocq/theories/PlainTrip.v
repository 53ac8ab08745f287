(* Plain scalars: what the emitter writes is read back. *)
From Verif Require Import Base ReaderModel Utf8Spec Utf8Lemmas CharSpec Types CursorModel CursorProofs ScanModel ScanProofs ScanQuoted PlanFree FullRun QuotedRun PlainRun WriterModel WriterSpec PenModel PenText EmitModel RoundSpec DoubleTrip SingleTrip.

(* ---- white space ---- *)
Definition wcol (white : list N) (c : N) : N := fold_left (fun c x => if is_break x then 0 else c + 1) white c.
Lemma wcol_break u b k c : is_break b = true -> wcol (u ++ b :: repeat 0x20 k) c = N.of_nat k.
Proof.
  intros H. unfold wcol. rewrite fold_left_app. cbn [fold_left]. rewrite H.
  assert (E : forall k c, fold_left (fun c x => if is_break x then 0 else c + 1) (repeat 0x20 k) c = c + N.of_nat k); [|rewrite E; lia].
  clear. induction k as [|k IH]; intros c; [cbn; lia|]. cbn [repeat fold_left]. change (is_break 0x20) with false. cbv iota. rewrite IH. lia.
Qed.
Lemma adv_det t m t1 m1 : adv t m t1 m1 -> forall t2 m2, adv t m t2 m2 -> length t1 = length t2 -> m1 = m2.
Proof.
  induction 1 as [t m|x t m t1 m1 B A IH|t m t1 m1 A IH|x t m t1 m1 B C A IH]; intros t2 m2 A2 L.
  - inversion A2; subst; [reflexivity|exfalso..]; match goal with H : adv _ _ _ _ |- _ => apply adv_len in H end; cbn [length] in *; lia.
  - pose proof (adv_len _ _ _ _ A) as LA. inversion A2; subst; [exfalso; cbn [length] in *; lia|eapply IH; eauto|discriminate|congruence].
  - pose proof (adv_len _ _ _ _ A) as LA. inversion A2; subst; [exfalso; cbn [length] in *; lia|discriminate|eapply IH; eauto|discriminate].
  - pose proof (adv_len _ _ _ _ A) as LA. inversion A2; subst; [exfalso; cbn [length] in *; lia|congruence|discriminate|eapply IH; eauto].
Qed.
Section White.
  Variables (flow : bool) (indent : Z) (start : mark).
  Definition white_goal (r white : list N) (m : mark) : Prop :=
    exists m', adv (white ++ r) m r m' /\ m_column m' = wcol white (m_column m) /\
      forall K L s e lb ws l tr, (lb = false -> l = [] /\ tr = []) ->
        (forall ws' l' tr', (lb || existsb is_break white = false -> l' = [] /\ tr' = []) -> pb flow indent start K L s e (lb || existsb is_break white, ws', l', tr') r m') ->
        pb flow indent start K L s e (lb, ws, l, tr) (white ++ r) m.
  Lemma white_line r b white1 bs m m1 : is_break (nth 0 b 0) = true -> line_text b bs (white1 ++ r) -> m_column m1 = 0 -> adv (b ++ white1 ++ r) m (white1 ++ r) m1 ->
    wcol (b ++ white1) (m_column m) = wcol white1 0 -> white_goal r white1 m1 -> white_goal r (b ++ white1) m.
  Proof.
    intros Hb LT C1 A1 Ew (m' & A & C & J). exists m'. rewrite <- app_assoc. split; [eapply adv_trans; eauto|]. split; [rewrite C, C1; symmetry; exact Ew|].
    intros K L s e lb ws l tr Hl H.
    assert (E : existsb is_break (b ++ white1) = true). { destruct b; [discriminate|]. cbn [app existsb]. cbn [nth] in Hb. rewrite Hb. reflexivity. }
    rewrite E, orb_true_r in H. destruct lb.
    - apply pb_more_break with (bs := bs); [exact LT|]. intros m2 _ A2. rewrite <- (adv_det _ _ _ _ A1 _ _ A2 eq_refl). apply J; [discriminate|]. cbn [orb]. intros. apply H. discriminate.
    - destruct (Hl eq_refl) as [-> ->]. apply pb_first_break with (bs := bs); [exact LT|]. intros m2 _ A2. rewrite <- (adv_det _ _ _ _ A1 _ _ A2 eq_refl). apply J; [discriminate|]. cbn [orb]. intros. apply H. discriminate.
  Qed.
  Lemma white_run r : forall n white m, (length white <= n)%nat -> white_text white -> is_break (nth 0 r 0) = false -> white_goal r white m.
  Proof.
    assert (N : forall m, white_goal r [] m).
    { intros m. exists m. split; [constructor|]. split; [reflexivity|]. intros K L s e lb ws l tr Hl J. cbn [existsb] in J. rewrite orb_false_r in J. apply J. exact Hl. }
    induction n as [|n IH]; intros white m Hn W R; (destruct white as [|c white]; [apply N|cbn [length] in Hn]); [lia|].
    inversion W as [|? ? Wc W']; subst. destruct Wc as [-> | Bc].
    - destruct (IH white (next_column 1 m) ltac:(lia) W' R) as (m' & A & C & J). exists m'. split; [apply adv_char; [reflexivity|exact A]|]. split; [exact C|].
      intros K L s e lb ws l tr Hl H. cbn [app existsb orb] in *. change (is_break 0x20) with false in H. cbn [orb] in H. destruct lb.
      + apply pb_skip. apply J; [exact Hl|exact H].
      + apply pb_blank; [reflexivity|]. destruct (Hl eq_refl) as [-> ->]. apply J; [auto|exact H].
    - destruct (N.eqb_spec c 0xD) as [->|Nc].
      + destruct (N.eqb_spec (nth 0 (white ++ r) 0) 0xA) as [E|E].
        * destruct white as [|d white]; [cbn [app] in E; rewrite E in R; discriminate|]. cbn in E. subst d. inversion W'; subst.
          apply (white_line r [0xD; 0xA] white [0xA] m (next_line 2 m)); [reflexivity|right; right; auto|reflexivity|apply adv_crlf; constructor|reflexivity|].
          apply IH; [cbn [length] in Hn; lia|assumption|exact R].
        * apply (white_line r [0xD] white [0xA] m (next_line 1 m)); [reflexivity|right; left; auto|reflexivity| |reflexivity|apply IH; [lia|assumption|exact R]].
          apply adv_line; [reflexivity| |constructor]. destruct (N.eqb_spec (nth 0 (white ++ r) 0) 0xA); [contradiction|reflexivity].
      + apply (white_line r [c] white (if (c =? 0x2028) || (c =? 0x2029) then utf8_enc c else [0xA]) m (next_line 1 m)); [exact Bc|left; exists c; auto|reflexivity| | |apply IH; [lia|assumption|exact R]].
        * apply adv_line; [exact Bc| |constructor]. destruct (N.eqb_spec c 0xD); [contradiction|reflexivity].
        * unfold wcol. cbn [app fold_left]. rewrite Bc. reflexivity.
  Qed.
End White.

(* ---- where the scalar ends ---- *)
Lemma marker_at r m : document_marker r -> m_column m = 0 -> at_document_indicator r m = true.
Proof.
  intros (x & r' & [-> | ->] & -> & B) C; unfold at_document_indicator, is_indicator; rewrite C; cbn [is_triple nth]; rewrite B; reflexivity.
Qed.
Lemma not_blank_break x : is_blankz x = false -> is_blank x || is_break x = false.
Proof. intros H. destruct (zb _ H) as (_ & -> & ->). reflexivity. Qed.
Lemma plain_end_run flow pindent start white r s m : white_text white -> plain_ends flow pindent white r ->
  exists m', adv (white ++ r) m r m' /\ m_column m' = wcol white (m_column m) /\
    forall (K : final) L, (length (white ++ r) <= L)%nat -> K s (existsb is_break white) m r m' ->
      pw flow (pindent + 1) start K L (s, (false, [], [], []), m) (white ++ r) m.
Proof.
  intros W E.
  assert (H1 : forall x, x = 0 \/ flow_end x = true \/ x = 0x3A \/ x = 0x23 \/ is_blankz x = false -> is_blank x || is_break x = false).
  { intros x [-> | [F | [-> | [-> | F]]]]; try reflexivity; [apply (flow_end_chars _ F)|apply not_blank_break; exact F]. }
  assert (R : is_blank (nth 0 r 0) || is_break (nth 0 r 0) = false).
  { apply H1. destruct E as [E|[[E _]|[[_ E]|[[_ E]|[(_ & E & _)|[(x & r' & [-> | ->] & -> & _) _]]]]]]; auto 6. }
  assert (Rb : is_break (nth 0 r 0) = false) by (apply orb_false_iff in R; apply R).
  destruct white as [|c white].
  - exists m. split; [constructor|]. split; [reflexivity|]. intros K L HL J. cbn [app existsb] in *.
    destruct E as [E|[E|[E|[[E _]|[(_ & _ & u & b & k & E & _)|[_ (u & b & E & _)]]]]]].
    + apply pw_nul; [unfold is_z; rewrite E; reflexivity|exact J].
    + apply pw_end; [left; exact E|exact J].
    + apply pw_end; [right; exact E|exact J].
    + contradiction.
    + destruct u; discriminate.
    + destruct u; discriminate.
  - set (w := c :: white) in *. destruct (white_run flow (pindent + 1) start r (length w) w m ltac:(lia) W Rb) as (m' & A & C & J).
    exists m'. split; [exact A|]. split; [exact C|]. intros K L HL Jk.
    assert (Hc : is_blank (nth 0 (w ++ r) 0) || is_break (nth 0 (w ++ r) 0) = true).
    { cbn. inversion W as [|? ? [Wc|Wc] _]; subst; [reflexivity|]. rewrite Wc. apply orb_true_r. }
    assert (Hl : (length r < L)%nat) by (rewrite app_length in HL; cbn [w length] in HL; lia).
    apply pw_blank; [exact Hc|]. apply J; [auto|]. cbn [orb]. intros ws l tr _.
    assert (Dec : flow = false /\ (Z.of_N (m_column m') < pindent + 1)%Z \/ (flow = true \/ (pindent + 1 <= Z.of_N (m_column m'))%Z)).
    { destruct flow; [right; left; reflexivity|]. destruct (Z.ltb_spec (Z.of_N (m_column m')) (pindent + 1)); [left; auto|right; right; lia]. }
    destruct Dec as [[D1 D2]|D]; [apply pb_dedent; assumption|].
    apply pb_round; [exact R|exact D|exact Hl|].
    destruct (at_document_indicator r m') eqn:DI; [apply p_indicator; assumption|].
    destruct (N.eqb_spec (nth 0 r 0) 0x23) as [Hh|Hh]; [apply p_comment; assumption|].
    apply p_round; [exact DI|exact Hh|].
    destruct E as [E|[E|[E|[[_ E]|[(E1 & E2 & u & b & k & E & Eb & Ek)|[E2 (u & b & E & Eb)]]]]]].
    + apply pw_nul; [unfold is_z; rewrite E; reflexivity|exact Jk].
    + apply pw_end; [left; exact E|exact Jk].
    + apply pw_end; [right; exact E|exact Jk].
    + contradiction.
    + exfalso. rewrite C, E, wcol_break in D by exact Eb. destruct D as [D|D]; [congruence|lia].
    + exfalso. rewrite marker_at in DI; [discriminate|exact E2|]. rewrite C, E. apply (wcol_break u b 0 _ Eb).
Qed.

(* ---- what the analysis says ---- *)
Definition plain_at (flow : bool) (pre : bool) (c : N) (r : list N) : Prop :=
  is_space c = true \/ (is_blankz c = false /\ (c = 0x3A -> is_blankz (next r) = false /\ flow = false) /\ (flow = true -> flow_end c = false) /\ (c = 0x23 -> pre = false)).
Fixpoint plain_ok (flow pre : bool) (s : list N) : Prop :=
  match s with [] => True | c :: r => plain_at flow pre c r /\ plain_ok flow (is_blankz c) r end.
Lemma existsb_false {A} (f : A -> bool) l x : existsb f l = false -> In x l -> f x = false.
Proof. intros H I. destruct (f x) eqn:E; [|reflexivity]. exfalso. assert (existsb f l = true) by (apply existsb_exists; eauto). congruence. Qed.
Lemma flow_end_first c : first_indicator c = false -> flow_end c = false /\ c <> 0x23.
Proof.
  intros H. unfold first_indicator in H. split.
  - unfold flow_end. cbn [existsb]. repeat match goal with |- context [c =? ?k] => rewrite (existsb_false (N.eqb c) _ k H) by (cbn; tauto) end. reflexivity.
  - intros ->. discriminate.
Qed.
Lemma flow_end_inner c : inner_flow_indicator c = false -> flow_end c = false.
Proof.
  intros H. unfold inner_flow_indicator in H. unfold flow_end. cbn [existsb]. repeat match goal with |- context [c =? ?k] => rewrite (existsb_false (N.eqb c) _ k H) by (cbn; tauto) end. reflexivity.
Qed.
Lemma indicator_flags u s : forall first pre ps pb f,
  let f' := flag_loop u first pre ps pb s f in
  (f_block_ind f' = false -> f_block_ind f = false /\ (existsb (special u) s = false -> existsb is_break s = false -> plain_ok false pre s)) /\
  (f_flow_ind f' = false -> f_flow_ind f = false /\ (existsb (special u) s = false -> existsb is_break s = false -> plain_ok true pre s)).
Proof.
  induction s as [|c r IH]; intros first pre ps pb f; cbn [flag_loop existsb plain_ok]; cbv zeta; [split; auto|].
  destruct (indicators_at first pre (is_blankz (next r)) c) as [bi fi] eqn:EI.
  match goal with |- context [flag_loop u false ?a ?b ?d r ?f0] => pose proof (IH false a b d f0) as K end. cbv zeta in K. destruct K as [K1 K2]. cbn [f_block_ind f_flow_ind] in K1, K2.
  assert (P : special u c = false -> is_break c = false -> is_space c = true \/ is_blankz c = false).
  { intros S B. destruct (is_space c) eqn:Sp; [auto|]. right. apply (printable_plain u); assumption. }
  split; intros H.
  - destruct (K1 H) as [K3 K4]. apply orb_false_iff in K3 as [K3 Hb]. split; [exact K3|]. intros S B. apply orb_false_iff in S as [S S'], B as [B B']. split; [|auto].
    destruct (P S B) as [Q|Q]; [left; exact Q|]. right. split; [exact Q|]. unfold indicators_at in EI. destruct first; injection EI as <- <-.
    + apply orb_false_iff in Hb as [Hb H3]. apply orb_false_iff in Hb as [Hb H2]. destruct (flow_end_first c Hb) as [F1 F2]. split; [|split; [discriminate|contradiction]].
      intros ->. cbn in H2. auto.
    + apply orb_false_iff in Hb as [H2 H3]. split; [intros ->; cbn in H2; auto|]. split; [discriminate|]. intros ->. exact H3.
  - destruct (K2 H) as [K3 K4]. apply orb_false_iff in K3 as [K3 Hb]. split; [exact K3|]. intros S B. apply orb_false_iff in S as [S S'], B as [B B']. split; [|auto].
    destruct (P S B) as [Q|Q]; [left; exact Q|]. right. split; [exact Q|]. unfold indicators_at in EI. destruct first; injection EI as <- <-.
    + apply orb_false_iff in Hb as [Hb H3]. apply orb_false_iff in Hb as [Hb H2]. apply orb_false_iff in Hb as [Hb H1]. destruct (flow_end_first c Hb) as [F1 F2]. split; [|split; [auto|contradiction]].
      intros ->. discriminate.
    + apply orb_false_iff in Hb as [Hb H3]. apply orb_false_iff in Hb as [H1 H2]. split; [intros ->; discriminate|]. split; [intros _; exact (flow_end_inner c H1)|]. intros ->. exact H3.
Qed.
Lemma edge_flags u s : forall first pre ps pb f,
  let f' := flag_loop u first pre ps pb s f in
  f_lspace f' = f_lspace f || first && is_space (next s) /\ f_tspace f' = f_tspace f || negb (nlen s =? 0) && is_space (last s 0).
Proof.
  induction s as [|c r IH]; intros first pre ps pb f; cbn [flag_loop]; cbv zeta; [rewrite andb_false_r, !orb_false_r; auto|].
  destruct (indicators_at first pre (is_blankz (next r)) c) as [bi fi].
  match goal with |- context [flag_loop u false ?a ?b ?d r ?f0] => destruct (IH false a b d f0) as [K1 K2] end. rewrite K1, K2. cbn [f_lspace f_tspace next nth].
  split; [rewrite andb_false_l, orb_false_r, (andb_comm first); reflexivity|].
  rewrite <- orb_assoc. f_equal. destruct r as [|d r]; [cbn; rewrite andb_true_r, orb_false_r; reflexivity|]. rewrite andb_false_r. cbn [orb]. reflexivity.
Qed.
Definition plain_allowed (flow : bool) (d : adata) : bool := if flow then a_flow_plain d else a_block_plain d.
Lemma plain_facts flow u s d : s <> [] -> plain_allowed flow (analyze_scalar u s d) = true ->
  plain_ok flow true s /\ existsb (special u) s = false /\ existsb is_break s = false /\ is_space (next s) = false /\ is_space (last s 0) = false /\ doc_indicator s = false.
Proof.
  intros Ns H. unfold analyze_scalar in H. destruct s as [|c r]; [contradiction|]. set (s := c :: r) in *.
  remember (scalar_flags u s) as f' eqn:Ef. unfold scalar_flags in Ef.
  match type of Ef with f' = flag_loop u true true false false s ?f0 => pose proof (flag_facts u s true true false false f0) as K; pose proof (indicator_flags u s true true false false f0) as I; pose proof (edge_flags u s true true false false f0) as E end.
  cbv zeta in K, I, E. rewrite <- Ef in K, I, E. destruct K as (_ & K2 & K3), I as [I1 I2], E as [E1 E2]. cbn [f_special f_breaks f_block_ind f_flow_ind f_lspace f_tspace orb andb] in *.
  assert (P : (if flow then negb (f_flow_ind f') else negb (f_block_ind f')) = true /\
    negb (f_lspace f' || f_lbreak f' || f_tspace f' || f_tbreak f') && negb (f_break_space f') && negb (f_space_break f' || f_special f') && negb (f_breaks f') = true).
  { destruct flow; cbn in H; apply andb_true_iff in H as [H1 H2]; auto. }
  destruct P as [Pi P]. apply andb_true_iff in P as [P P4]. apply andb_true_iff in P as [P P3]. apply andb_true_iff in P as [P1 P2].
  apply negb_true_iff in P1, P3, P4. apply orb_false_iff in P1 as [P1 P1d]. apply orb_false_iff in P1 as [P1 P1c]. apply orb_false_iff in P1 as [P1a P1b]. apply orb_false_iff in P3 as [P3a P3b].
  rewrite P3b in K2. rewrite P4 in K3. rewrite P1a in E1. rewrite P1c in E2. cbn [nlen length] in E2. symmetry in K2, K3, E1, E2.
  assert (Q : is_space (last s 0) = false). { replace (nlen s =? 0) with false in E2; [exact E2|]. symmetry. apply N.eqb_neq. unfold nlen, s. cbn [length]. lia. }
  destruct flow; apply negb_true_iff in Pi.
  - destruct (I2 Pi) as [D Hp]. auto 8.
  - destruct (I1 Pi) as [D Hp]. auto 8.
Qed.

(* ---- the texts ---- *)
Inductive pq (g : cfg) (n : nat) : seen -> list N -> list N -> Prop :=
| pq_nil : pq g n InWord [] []
| pq_char x c s w : is_space c = false -> pq g n InWord s w -> pq g n x (c :: s) (c :: w)
| pq_space x s w : pq g n InSpace s w -> pq g n x (0x20 :: s) (0x20 :: w)
| pq_fold s w : nth 0 s 0 <> 0x20 -> pq g n InSpace s w -> pq g n InWord (0x20 :: s) (break_chars g ++ repeat 0x20 n ++ w).

Lemma pq_head g n x s w : pq g n x s w -> is_blankz (next s) = false -> next s <> 0x20 -> exists w', w = next s :: w'.
Proof. intros D Z N. destruct D; cbn [next nth] in *; [discriminate|eauto|contradiction|contradiction]. Qed.
Lemma char_not_break c : is_blankz c = false -> is_break c = false.
Proof. intros H. apply (zb _ H). Qed.

Lemma pq_plain_char g n flow rest c s w : is_blankz c = false -> plain_at flow true c s \/ plain_at flow false c s -> pq g n InWord s w -> plain_char flow c (w ++ rest).
Proof.
  intros Z P D. assert (P' : (c = 0x3A -> is_blankz (next s) = false /\ flow = false) /\ (flow = true -> flow_end c = false)).
  { assert (NS : is_space c = false) by (destruct (zb _ Z) as (_ & X & _); unfold is_blank in X; apply orb_false_iff in X; apply X).
    destruct P as [[S|P]|[S|P]]; try congruence; tauto. }
  destruct P' as [P1 P2]. split; [exact Z|]. split; [|exact P2]. intros Hc. destruct (P1 Hc) as [P3 P4]. split; [|exact P4].
  destruct (pq_head g n InWord s w D P3) as (w' & ->); [intros X; rewrite X in P3; discriminate|]. exact P3.
Qed.
Section Read.
  Variables (g : cfg) (n : nat) (flow : bool) (pindent : Z) (start : mark) (K : final) (T : list N) (m0 : mark) (rest v : list N).
  Hypothesis B : g_break g <> AnyBreak.
  Hypothesis Hn : (1 <= n)%nat.
  Hypothesis Hi : flow = true \/ (pindent < Z.of_nat n)%Z.
  Notation pw := (pw flow (pindent + 1) start K). Notation pb := (pb flow (pindent + 1) start K).
  Definition far (m : mark) : Prop := m_column m <> 0 /\ (flow = true \/ (pindent < Z.of_N (m_column m))%Z).
  Hypothesis E : forall L m, adv T m0 rest m -> (length rest <= L)%nat -> pw L (v, (false, [], [], []), m) rest m.
  Lemma far_next m : far m -> far (next_column 1 m).
  Proof. intros [F1 F2]. split; cbn; [lia|]. destruct F2; [auto|right; lia]. Qed.
  Lemma plain_at_any pre c s : plain_at flow pre c s -> plain_at flow true c s \/ plain_at flow false c s.
  Proof. destruct pre; auto. Qed.
  (* a character after blanks *)
  Lemma pb_char L acc b c s w m e : plain_at flow true c s -> is_blankz c = false -> pq g n InWord s w -> far m -> (length (c :: w ++ rest) < L)%nat -> tail_blanks b = (false, [], [], []) ->
    (forall L' m', m' = next_column 1 m -> (length (w ++ rest) <= L')%nat -> pw L' (folded acc b ++ utf8_enc c, (false, [], [], []), m') (w ++ rest) m') ->
    pb L acc e b (c :: w ++ rest) m.
  Proof.
    intros P Z D F HL TB J. destruct F as [F1 F2]. apply pb_round; [apply not_blank_break; exact Z|destruct F2; [auto|right; lia]|exact HL|].
    apply p_round.
    - unfold at_document_indicator. destruct (N.eqb_spec (m_column m) 0); [contradiction|reflexivity].
    - cbn [nth]. intros ->. destruct P as [P|(_ & _ & _ & P)]; [discriminate|]. discriminate (P eq_refl).
    - apply pw_char; [eapply pq_plain_char; eauto|]. rewrite TB. apply J; [reflexivity|cbn [length]; lia].
  Qed.
  Lemma pq_read x s w : pq g n x s w -> forall pre, plain_ok flow pre s -> (x = InSpace -> pre = true) ->
    forall L acc m, far m -> adv T m0 (w ++ rest) m ->
    match x with
    | InSpace => forall b e, (exists ws, b = (false, ws, [], [])) \/ (b = (true, [], [0xA], []) /\ nth 0 s 0 <> 0x20) -> (length (w ++ rest) < L)%nat -> v = folded acc b ++ utf8 s -> pb L acc e b (w ++ rest) m
    | _ => (length (w ++ rest) <= L)%nat -> v = acc ++ utf8 s -> pw L (acc, (false, [], [], []), m) (w ++ rest) m
    end.
  Proof.
    induction 1 as [|x c s w S D IH|x s w D IH|s w N D IH]; intros pre P X L acc m F A.
    - cbn [app utf8 flat_map] in *. intros HL Ev. rewrite app_nil_r in Ev. rewrite <- Ev. apply E; assumption.
    - destruct P as [P1 P2]. assert (Z : is_blankz c = false) by (destruct P1 as [P1|P1]; [congruence|apply P1]).
      assert (A' : adv T m0 (w ++ rest) (next_column 1 m)) by (eapply adv_trans; [exact A|]; apply adv_one; apply char_not_break; exact Z).
      assert (J : forall L' acc', (length (w ++ rest) <= L')%nat -> v = acc' ++ utf8 s -> pw L' (acc', (false, [], [], []), next_column 1 m) (w ++ rest) (next_column 1 m)).
      { intros L' acc' HL' Ev. apply (IH _ P2); [discriminate|apply far_next; exact F|exact A'|exact HL'|exact Ev]. }
      assert (W : (length ((c :: w) ++ rest) <= L)%nat -> v = acc ++ utf8 (c :: s) -> pw L (acc, (false, [], [], []), m) ((c :: w) ++ rest) m).
      { intros HL Ev. cbn [app length] in *. apply pw_char; [eapply pq_plain_char; [exact Z|eapply plain_at_any; exact P1|exact D]|].
        cbn [folded tail_blanks]. apply J; [lia|]. rewrite Ev, app_nil_r. change (utf8 (c :: s)) with (utf8_enc c ++ utf8 s). rewrite app_assoc. reflexivity. }
      destruct x; [exact W| |exact W]. intros b e Hb HL Ev. cbn [app] in *. pose proof (X eq_refl) as Xp. subst pre.
      eapply pb_char; [exact P1|exact Z|exact D|exact F|exact HL|destruct Hb as [[ws ->]|[-> _]]; reflexivity|]. intros L' m' -> HL'. apply J; [exact HL'|].
      rewrite Ev. change (utf8 (c :: s)) with (utf8_enc c ++ utf8 s). rewrite <- !app_assoc. reflexivity.
    - destruct P as [_ P2]. change (is_blankz 0x20) with true in P2.
      assert (A' : adv T m0 (w ++ rest) (next_column 1 m)) by (eapply adv_trans; [exact A|]; apply adv_one; reflexivity).
      assert (J : forall ws e, (length ((0x20 :: w) ++ rest)%N <= L)%nat -> v = acc ++ ws ++ utf8 (0x20 :: s) -> pb L acc e (false, ws, [], []) ((0x20 :: w) ++ rest) m).
      { intros ws e HL Ev. cbn [app length] in *. apply pb_blank; [reflexivity|]. apply (IH true P2); [reflexivity|apply far_next; exact F|exact A'|left; eauto|lia|].
        cbn [folded]. rewrite Ev. change (utf8 (0x20 :: s)) with (utf8_enc 0x20 ++ utf8 s). rewrite <- !app_assoc. reflexivity. }
      assert (W : (length ((0x20 :: w) ++ rest)%N <= L)%nat -> v = acc ++ utf8 (0x20 :: s) -> pw L (acc, (false, [], [], []), m) ((0x20 :: w) ++ rest) m).
      { intros HL Ev. apply pw_blank; [reflexivity|]. apply (J [] m HL Ev). }
      destruct x; [exact W| |exact W]. intros b e Hb HL Ev. destruct Hb as [[ws ->]|[_ Hb]]; [|cbn in Hb; congruence]. cbn [folded] in Ev. rewrite <- app_assoc in Ev. apply J; [lia|exact Ev].
    - intros HL Ev. destruct P as [_ P2]. change (is_blankz 0x20) with true in P2. rewrite <- !app_assoc in *.
      assert (BL : (0 < length (break_chars g))%nat) by (unfold break_chars; destruct (g_break g); [congruence|cbn; lia..]).
      apply pw_blank; [rewrite break_chars_head by exact B; apply orb_true_r|].
      apply (pb_first_break flow (pindent + 1) start K L acc m [] (break_chars g) [0xA]); [apply break_line; [exact B|intros _; rewrite nth0_repeat by exact Hn; discriminate]|].
      intros m1 C1 A1. apply pb_skips. intros m2 C2 A2. rewrite !app_length, repeat_length in HL.
      assert (F2 : far m2) by (split; [lia|]; destruct Hi as [Hf|Hp]; [auto|right; lia]).
      assert (A3 : adv T m0 (w ++ rest) m2) by (eapply adv_trans; [exact A|]; eapply adv_trans; eauto).
      apply (IH true P2); [reflexivity|exact F2|exact A3|right; auto|rewrite app_length; lia|]. cbn [folded starts_lf nonempty]. rewrite Ev, <- app_assoc. reflexivity.
  Qed.
End Read.

Lemma ends_not_marker flow pindent white r k : white_text white -> plain_ends flow pindent white r -> k = 0x2D \/ k = 0x2E -> nth 0 (white ++ r) 0 <> k.
Proof.
  intros W E Hk. destruct white as [|c white].
  - cbn [app]. destruct E as [E|[[E _]|[[_ E]|[[E _]|[(_ & _ & u & b & j & E & _)|[_ (u & b & E & _)]]]]]].
    + rewrite E. destruct Hk as [-> | ->]; discriminate.
    + rewrite E. destruct Hk as [-> | ->]; discriminate.
    + destruct (flow_end_chars _ E) as (_ & _ & _ & _ & H1 & H2 & _). destruct Hk as [-> | ->]; assumption.
    + contradiction.
    + destruct u; discriminate.
    + destruct u; discriminate.
  - cbn. inversion W as [|? ? [Wc|Wc] _]; subst; destruct Hk as [-> | ->]; try discriminate; intros ->; discriminate.
Qed.
Lemma nth_app_nil {A} (l : list A) d : nth 0 ([] ++ l) d = nth 0 l d. Proof. reflexivity. Qed.
Lemma pq_char_inv g n x c s w rest k : pq g n x (c :: s) w -> nth 0 (w ++ rest) 0 = k -> k = 0x2D \/ k = 0x2E -> g_break g <> AnyBreak -> c = k /\ exists w', w = k :: w' /\ pq g n InWord s w'.
Proof.
  intros D E Hk B. inversion D; subst; cbn [app nth] in *.
  - eauto.
  - destruct Hk; discriminate.
  - exfalso. rewrite <- app_assoc in Hk. pose proof (break_chars_head g ((repeat 0x20 n ++ w0) ++ rest) B) as X. destruct Hk as [Hk|Hk]; rewrite Hk in X; discriminate.
Qed.
Lemma pq_no_marker g n s w rest k : g_break g <> AnyBreak -> pq g n InWord s w -> doc_indicator s = false -> nth 0 rest 0 <> k -> k = 0x2D \/ k = 0x2E -> is_triple k (w ++ rest) = false.
Proof.
  intros B D I R Hk. destruct (is_triple k (w ++ rest)) eqn:T; [exfalso|reflexivity].
  assert (X : exists a, w ++ rest = k :: k :: k :: a).
  { destruct (w ++ rest) as [|x [|y [|z a]]]; try discriminate. cbn in T. apply andb_true_iff in T as [T T3]. apply andb_true_iff in T as [T1 T2]. apply N.eqb_eq in T1, T2, T3. subst. eauto. }
  destruct X as [a X].
  destruct s as [|c1 s]; [inversion D; subst; cbn in X; rewrite X in R; cbn in R; contradiction|].
  destruct (pq_char_inv g n InWord c1 s w rest k D ltac:(rewrite X; reflexivity) Hk B) as (-> & w1 & -> & D1). cbn [app] in X. injection X as X.
  destruct s as [|c2 s]; [inversion D1; subst; cbn in X; rewrite X in R; cbn in R; contradiction|].
  destruct (pq_char_inv g n InWord c2 s w1 rest k D1 ltac:(rewrite X; reflexivity) Hk B) as (-> & w2 & -> & D2). cbn [app] in X. injection X as X.
  destruct s as [|c3 s]; [inversion D2; subst; cbn in X; rewrite X in R; cbn in R; contradiction|].
  destruct (pq_char_inv g n InWord c3 s w2 rest k D2 ltac:(rewrite X; reflexivity) Hk B) as (-> & w3 & -> & D3).
  unfold doc_indicator in I. cbn [nth] in I. destruct Hk as [-> | ->]; discriminate.
Qed.

Definition plain_string (flow : bool) (s : list N) : Prop :=
  s <> [] /\ plain_ok flow true s /\ is_space (next s) = false /\ is_space (last s 0) = false /\ doc_indicator s = false /\ existsb is_break s = false.
Lemma plain_scanned g n flow pindent s w white r m :
  g_break g <> AnyBreak -> (1 <= n)%nat -> flow = true \/ (pindent < Z.of_nat n)%Z /\ (pindent <= Z.of_N (m_column m))%Z ->
  plain_string flow s -> pq g n InWord s w -> white_text white -> plain_ends flow pindent white r ->
  exists e m', adv (w ++ white ++ r) m (white ++ r) e /\ adv (white ++ r) e r m' /\
    scan_plain_scalar flow pindent (fc (w ++ white ++ r) m) = COk (mkToken (TScalar (utf8 s) Plain) m e false, existsb is_break white) (fc r m').
Proof.
  intros B Hn Hi (Ns & Ok & Sp & _ & Di & _) D W E.
  set (rest := white ++ r) in *. set (T := w ++ rest) in *.
  set (K := fun (x : list N) (lb : bool) (e : mark) (t : list N) (m' : mark) => adv T m rest e /\ adv rest e t m' /\ t = r /\ x = utf8 s /\ lb = existsb is_break white).
  destruct s as [|c s]; [contradiction|]. cbn [next nth] in Sp. destruct Ok as [P1 P2].
  assert (Z : is_blankz c = false) by (destruct P1 as [P1|P1]; [congruence|apply P1]).
  assert (D1 : exists w1, w = c :: w1 /\ pq g n InWord s w1).
  { inversion D; subst; [eauto|discriminate|discriminate]. }
  destruct D1 as (w1 & -> & D1).
  assert (G : pends flow (pindent + 1) m K (length T) (p_body flow (pindent + 1) m ([], (false, [], [], []), m) (fc T m))).
  { apply p_round.
    - unfold at_document_indicator, is_indicator. destruct (m_column m =? 0); [|reflexivity]. cbn [andb].
      rewrite !(pq_no_marker g n _ _ rest _ B D Di); [reflexivity|apply (ends_not_marker flow pindent); auto|auto|apply (ends_not_marker flow pindent); auto|auto].
    - unfold T. cbn [app nth]. intros ->. destruct P1 as [P1|(_ & _ & _ & P1)]; [discriminate|]. discriminate (P1 eq_refl).
    - unfold T. cbn [app]. apply pw_char.
      + apply (pq_plain_char g n flow rest c s w1 Z); [left; exact P1|exact D1].
      + cbn [folded tail_blanks app].
        refine (pq_read g n flow pindent m K T m rest (utf8 (c :: s)) B Hn _ _ InWord s w1 D1 (is_blankz c) P2 _ _ (utf8_enc c) (next_column 1 m) _ _ _ _).
        * destruct Hi as [Hi|[Hi _]]; auto.
        * intros L m1 A1 HL. destruct (plain_end_run flow pindent m white r (utf8 (c :: s)) m1 W E) as (m' & A & C & J). apply J; [exact HL|]. unfold K. auto.
        * discriminate.
        * split; [cbn; lia|]. destruct Hi as [Hi|[_ Hi]]; [auto|right; cbn; lia].
        * unfold T. cbn [app]. apply adv_one. apply char_not_break. exact Z.
        * cbn [app length]. lia.
        * cbn [app]. reflexivity. }
  unfold scan_plain_scalar. run. fold (p_body flow (pindent + 1) m).
  assert (Y : exists st c', loop (p_body flow (pindent + 1) m) ([], (false, [], [], []), m) (fc T m) = COk st c' /\ fin K st c').
  { destruct (p_body flow (pindent + 1) m ([], (false, [], [], []), m) (fc T m)) as [[s1|s1] c1|er| |] eqn:X; try contradiction; cbn [pends] in G.
    - destruct G as [G1 (st & c' & G2 & G3)]. exists st, c'. split; [exact (loop_go _ _ _ _ _ _ _ X G1 G2)|exact G3].
    - exists s1, c1. split; [exact (loop_end _ _ _ _ _ X)|exact G]. }
  destruct Y as ([[x [[[lb ws] l] tr]] e] & c' & Y & t & m' & -> & K1 & K2 & -> & -> & ->).
  exists e, m'. split; [exact K1|]. split; [exact K2|].
  match goal with |- bind (loop ?body _) _ _ = _ => change body with (p_body flow (pindent + 1) m) end.
  unfold bind. rewrite Y. reflexivity.
Qed.

(* ---- what is written ---- *)
Lemma plain_text g i allow : (1 <= i)%Z -> forall s (spaces : bool) p, existsb is_break s = false ->
  (s = [] -> spaces = false) -> (s <> [] -> is_space (last s 0) = false) -> spaces = true \/ p_indention p = false \/ is_space (next s) = false ->
  exists w, chars (plain_loop g i allow spaces false s p) = chars p ++ w /\ pq g (Z.to_nat i) (if spaces then InSpace else InWord) s w.
Proof.
  intros Hi s. induction s as [|c r IH]; intros spaces p Bk N La H.
  - exists []. rewrite app_nil_r. split; [reflexivity|]. rewrite (N eq_refl). constructor.
  - cbn [existsb] in Bk. apply orb_false_iff in Bk as [Bc Bk]. cbn [plain_loop].
    assert (La' : r <> [] -> is_space (last r 0) = false) by (intros Nr; specialize (La ltac:(discriminate)); destruct r; [contradiction|exact La]).
    destruct (is_space c) eqn:Sp.
    + apply N.eqb_eq in Sp. subst c.
      assert (Nr : r <> []) by (intros ->; specialize (La ltac:(discriminate)); discriminate).
      destruct (allow && negb spaces && (p_column p >? g_width g)%Z && negb (is_space (next r))) eqn:Fo.
      * apply andb_true_iff in Fo as [Fo Nx]. apply andb_true_iff in Fo as [Fo _]. apply andb_true_iff in Fo as [_ Sf]. apply negb_true_iff in Sf, Nx. subst spaces.
        assert (H' : p_indention p = false) by (destruct H as [H|[H|H]]; [discriminate|exact H|discriminate]).
        destruct (indent_break g i p ltac:(lia) (or_introl H')) as (E1 & E2 & E3 & E4).
        destruct (IH true (write_indent g i p) Bk ltac:(contradiction) La' (or_introl eq_refl)) as (w & E & D).
        exists (break_chars g ++ repeat 0x20 (Z.to_nat i) ++ w). split; [rewrite E, E1, <- !app_assoc; reflexivity|]. apply pq_fold; [apply N.eqb_neq; exact Nx|exact D].
      * destruct (IH true (pput 0x20 p) Bk ltac:(contradiction) La' (or_introl eq_refl)) as (w & E & D).
        exists (0x20 :: w). rewrite E, chars_put, <- app_assoc. split; [reflexivity|]. apply pq_space. exact D.
    + rewrite Bc. destruct (IH false (set_indention (pput c p) false) Bk ltac:(auto) La' (or_intror (or_introl eq_refl))) as (w & E & D).
      exists (c :: w). rewrite E, chars_indention, chars_put, <- app_assoc. split; [reflexivity|]. apply pq_char; assumption.
Qed.
Lemma plain_string_of flow u s d : s <> [] -> plain_allowed flow (analyze_scalar u s d) = true -> plain_string flow s.
Proof. intros N A. destruct (plain_facts flow u s d N A) as (H1 & H2 & H3 & H4 & H5 & H6). unfold plain_string. auto 8. Qed.
Lemma write_plain_text g i fl s allow p : (1 <= i)%Z -> s <> [] -> is_space (next s) = false -> is_space (last s 0) = false -> existsb is_break s = false ->
  exists w, chars (write_plain g i fl s allow p) = chars p ++ (if p_white p then [] else [0x20]) ++ w /\ pq g (Z.to_nat i) InWord s w.
Proof.
  intros Hi N S1 S2 Bk. unfold write_plain. rewrite chars_white.
  destruct (plain_text g i allow Hi s false (space_if (negb (p_white p) && (negb (nlen s =? 0) || negb (fl =? 0)%Z)) p) Bk) as (w & E & D); [auto|auto|auto|].
  exists w. rewrite E. split; [|exact D]. unfold space_if. destruct (p_white p); [reflexivity|]. cbn [negb andb].
  replace (nlen s =? 0) with false; [cbn [negb orb]; rewrite chars_put, <- app_assoc; reflexivity|]. symmetry. apply N.eqb_neq. unfold nlen. destruct s; [contradiction|]. cbn [length]. lia.
Qed.

(* every buffer *)
Lemma plain_any_buffer flow pindent c t r tok lb : at_text c t -> plain_stop flow t = false -> nth 0 t 0 <> 0x23 -> at_document_indicator t (c_mark c) = false ->
  (exists m', scan_plain_scalar flow pindent (fc t (c_mark c)) = COk (tok, lb) (fc r m')) ->
  exists c', scan_plain_scalar flow pindent c = COk (tok, lb) c' /\ c_text c' = r.
Proof.
  intros (T & Bd & U) P H D [m' E]. pose proof (free_scan_plain_scalar flow pindent c (conj Bd (eq_ind_r (fun x => (c_unread c <= S (length x))%nat) (proj2 U) T))) as K. rewrite fc_full, T, E in K.
  assert (W : wp (scan_plain_scalar flow pindent) c (fun _ _ => True) (epos t (c_mark c) (Some (c_mark c)))).
  { apply (p_scan_plain_scalar flow pindent t (c_mark c) c); [|exact P|exact H|exact D|auto]. split; [exact T|]. split; [reflexivity|]. lia. }
  unfold wp in W. destruct (scan_plain_scalar flow pindent c) as [tk c'|er| |]; try contradiction; try discriminate.
  destruct K as [K _]. injection K as <- H2 _ H3. exists c'. auto.
Qed.
Theorem plain_round_trip g i fl s allow p d flow pindent : (1 <= i)%Z -> g_break g <> AnyBreak -> s <> [] -> plain_allowed flow (analyze_scalar (g_unicode g) s d) = true ->
  exists sp w, (sp = [] \/ sp = [0x20]) /\ written (write_plain g i fl s allow p) = written p ++ sp ++ w /\
    forall white r c, at_text c (w ++ white ++ r) -> white_text white -> plain_ends flow pindent white r ->
      flow = true \/ (pindent < i)%Z /\ (pindent <= Z.of_N (m_column (c_mark c)))%Z ->
      exists c' e, scan_plain_scalar flow pindent c = COk (mkToken (TScalar (utf8 s) Plain) (c_mark c) e false, existsb is_break white) c' /\ c_text c' = r.
Proof.
  intros Hi B N A. destruct (plain_string_of _ _ _ _ N A) as (P1 & P2 & P3 & P4 & P5 & P6).
  destruct (write_plain_text g i fl s allow p Hi N P3 P4 P6) as (w & E & D).
  exists (if p_white p then [] else [0x20]), w. split; [destruct (p_white p); auto|]. split; [exact E|].
  intros white r c At W En F.
  destruct (plain_scanned g (Z.to_nat i) flow pindent s w white r (c_mark c) B ltac:(lia)) as (e & m' & A1 & A2 & X); [destruct F as [F|F]; [auto|right; lia]|unfold plain_string; auto 8|exact D|exact W|exact En|].
  destruct s as [|x s]; [contradiction|]. destruct P2 as [Q1 Q2]. cbn [next nth] in P3.
  assert (Z : is_blankz x = false) by (destruct Q1 as [Q1|Q1]; [congruence|apply Q1]).
  assert (D1 : exists w1, w = x :: w1 /\ pq g (Z.to_nat i) InWord s w1) by (inversion D; subst; [eauto|discriminate|discriminate]).
  destruct D1 as (w1 & -> & D1).
  assert (PC : plain_char flow x (w1 ++ white ++ r)) by (apply (pq_plain_char g (Z.to_nat i) flow (white ++ r) x s w1 Z); [left; exact Q1|exact D1]).
  destruct (plain_any_buffer flow pindent c ((x :: w1) ++ white ++ r) r (mkToken (TScalar (utf8 (x :: s)) Plain) (c_mark c) e false) (existsb is_break white) At) as (c' & Y1 & Y2); [| | |exists m'; exact X|exists c', e; auto].
  - destruct PC as (C1 & C2 & C3). unfold plain_stop. cbn [app nth]. rewrite Z. cbn [orb].
    destruct (N.eqb_spec x 0x3A) as [Hx|Hx].
    + destruct (C2 Hx) as [C4 ->]. cbn [andb orb]. cbn [nth] in C4. rewrite C4. reflexivity.
    + cbn [andb orb]. destruct flow; [rewrite (C3 eq_refl); reflexivity|reflexivity].
  - cbn [app nth]. intros ->. destruct Q1 as [Q1|(_ & _ & _ & Q1)]; [discriminate|]. discriminate (Q1 eq_refl).
  - unfold at_document_indicator, is_indicator. destruct (m_column (c_mark c) =? 0); [|reflexivity]. cbn [andb].
    rewrite !(pq_no_marker g (Z.to_nat i) _ _ (white ++ r) _ B D P5); [reflexivity|apply (ends_not_marker flow pindent); auto|auto|apply (ends_not_marker flow pindent); auto|auto].
Qed.
