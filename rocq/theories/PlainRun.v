(* How the scanner reads a plain scalar, character by character. *)
From Verif Require Import Base ReaderModel Utf8Spec Utf8Lemmas CharSpec Types CursorModel CursorProofs ScanModel ScanProofs ScanQuoted PlanFree FullRun QuotedRun.

Lemma r_triple {X} x t m (k : bool -> cm X) : 0 < x -> is_ascii x = true -> bind (triple x) k (fc t m) = k (is_triple x t) (fc t m).
Proof.
  intros P A. unfold triple. rewrite r_and, r_check0. unfold eqc. destruct t as [|a t]; [cbn [nth]; destruct (N.eqb_spec 0 x); [lia|reflexivity]|].
  cbn [nth]. destruct (N.eqb_spec a x) as [->|Na].
  2:{ rewrite r_ret. unfold is_triple. destruct t as [|b [|c r]]; [reflexivity|reflexivity|]. destruct (N.eqb_spec a x); [contradiction|reflexivity]. }
  rewrite r_and, (r_check 1); [|cbn; lia|cbn [firstn forallb]; rewrite A; reflexivity]. destruct t as [|b t]; [cbn [nth]; destruct (N.eqb_spec 0 x); [lia|reflexivity]|].
  cbn [nth]. destruct (N.eqb_spec b x) as [->|Nb].
  2:{ rewrite r_ret. unfold is_triple. destruct t as [|c r]; [reflexivity|]. destruct (N.eqb_spec b x); [contradiction|]. rewrite andb_false_r. reflexivity. }
  rewrite (r_check 2); [|cbn; lia|cbn [firstn forallb]; rewrite A; reflexivity]. destruct t as [|c t]; [cbn [nth]; destruct (N.eqb_spec 0 x); [lia|reflexivity]|].
  cbn [nth is_triple]. rewrite N.eqb_refl. reflexivity.
Qed.
Lemma r_document {X} t m (k : bool -> cm X) : bind document_indicator k (fc t m) = k (at_document_indicator t m) (fc t m).
Proof.
  unfold document_indicator, at_document_indicator, is_indicator. rewrite r_bind, r_column, r_and, r_ret. destruct (m_column m =? 0); [|reflexivity]. cbn [andb].
  rewrite r_and, r_or, r_triple by (reflexivity || lia). destruct (is_triple 0x2D t) eqn:T1.
  - destruct (triple_ascii _ _ T1 eq_refl) as [A L]. rewrite r_ret. cbv iota. rewrite (r_check 3 is_blankz k t m L A). cbn [andb orb].
    destruct (is_blankz (nth 3 t 0)); [reflexivity|]. destruct t as [|a [|b [|c r]]]; try discriminate. cbn [is_triple] in *. repeat (apply andb_true_iff in T1 as [T1 ?]). repeat match goal with H : (_ =? _) = true |- _ => apply N.eqb_eq in H end. subst. reflexivity.
  - rewrite r_triple by (reflexivity || lia). cbn [andb orb]. destruct (is_triple 0x2E t) eqn:T2; [|reflexivity].
    destruct (triple_ascii _ _ T2 eq_refl) as [A L]. rewrite (r_check 3 is_blankz k t m L A). reflexivity.
Qed.

Section Plain.
  Variables (flow : bool) (indent : Z) (start : mark).
  (* the body of the outer loop *)
  Definition p_rest (st : plain_state) : cm (plain_state + plain_state) :=
    more <- check 0 (fun x => is_blank x || is_break x) ;;
    if negb more then ret (inr st) else
    cache 1 ;;;
    let '(s, b, e) := st in
    b <- scan_plain_blanks indent start b ;;
    col <- column ;;
    if negb flow && (Z.of_N col <? indent)%Z then ret (inr (s, b, e))
    else ret (inl (s, b, e)).
  Definition p_body (st : plain_state) : cm (plain_state + plain_state) :=
    cache 4 ;;;
    ind <- document_indicator ;;
    if ind then ret (inr st) else
    hash <- check 0 (eqc 0x23) ;;
    if hash then ret (inr st) else
    st <- scan_plain_word flow start st ;;
    p_rest st.
  Definition p_col (s : list N) (e : mark) (b : blanks) : cm (plain_state + plain_state) :=
    col <- column ;;
    if negb flow && (Z.of_N col <? indent)%Z then ret (inr (s, b, e))
    else ret (inl (s, b, e)).

  (* how it all ends *)
  Definition final := list N -> bool -> mark -> list N -> mark -> Prop.
  Definition fin (K : final) (st : plain_state) (c : cur) : Prop :=
    let '(s, (lb, _, _, _), e) := st in exists t m, c = fc t m /\ K s lb e t m.
  Definition pends (K : final) (L : nat) (r : cres (plain_state + plain_state)) : Prop :=
    match r with
    | COk (inr st) c => fin K st c
    | COk (inl st) c => (length (c_text c) < L)%nat /\ exists st' c', loop p_body st c = COk st' c' /\ fin K st' c'
    | _ => False
    end.
  Definition pw (K : final) (L : nat) (st : plain_state) (t : list N) (m : mark) : Prop :=
    pends K L (bind (scan_plain_word flow start st) p_rest (fc t m)).
  Definition pb (K : final) (L : nat) (s : list N) (e : mark) (b : blanks) (t : list N) (m : mark) : Prop :=
    pends K L (bind (scan_plain_blanks indent start b) (p_col s e) (fc t m)).

  Lemma pends_loop {A B} (body : A -> cm (A + B)) k K L a t m a1 t1 m1 :
    body a (fc t m) = COk (inl a1) (fc t1 m1) -> (length t1 < length t)%nat ->
    pends K L (bind (loop body a1) k (fc t1 m1)) -> pends K L (bind (loop body a) k (fc t m)).
  Proof.
    intros E H J. unfold bind in *. destruct (loop body a1 (fc t1 m1)) as [x c|e| |] eqn:X; try contradiction.
    rewrite (loop_go body a (fc t m) a1 (fc t1 m1) x c E H X). exact J.
  Qed.

  (* an ordinary character *)
  Definition plain_char (c : N) (t : list N) : Prop :=
    is_blankz c = false /\ (c = 0x3A -> is_blankz (nth 0 t 0) = false /\ flow = false) /\ (flow = true -> flow_end c = false).
  Definition tail_blanks (b : blanks) : blanks := let '(lb, ws, _, _) := b in (false, (if lb then ws else []), [], []).
  Lemma pw_char K L s b e c t m : plain_char c t ->
    pw K L (folded s b ++ utf8_enc c, tail_blanks b, next_column 1 m) t (next_column 1 m) -> pw K L (s, b, e) (c :: t) m.
  Proof.
    intros (Z & C & F). destruct b as [[[lb ws] l] tr]. unfold pw, scan_plain_word. apply pends_loop; [|cbn; lia].
    run. cbn [nth]. rewrite Z. run.
    assert (S : forall {X} (k : bool -> cm X),
      bind (andc (ret flow) (andc (check 0 (eqc 0x3A)) (check 1 (fun x => flow_end x || (x =? 0x3F))))) k (fc (c :: t) m) = k false (fc (c :: t) m)).
    { intros X k. run. destruct flow eqn:Fl; [|reflexivity]. run. cbn [nth]. unfold eqc. destruct (N.eqb_spec c 0x3A) as [->|N]; [|reflexivity].
      destruct (C eq_refl). discriminate. }
    rewrite S. clear S. cbv iota.
    assert (S : forall {X} (k : bool -> cm X),
      bind (orc (andc (check 0 (eqc 0x3A)) (check 1 is_blankz)) (andc (ret flow) (check 0 flow_end))) k (fc (c :: t) m) = k false (fc (c :: t) m)).
    { intros X k. rewrite r_or, r_and, r_check0. cbn [nth]. unfold eqc. destruct (N.eqb_spec c 0x3A) as [->|N].
      - rewrite (r_check 1); [|cbn; lia|reflexivity]. cbn [nth]. destruct (C eq_refl) as [C1 C2]. rewrite C1. run. rewrite C2. reflexivity.
      - run. destruct flow eqn:Fl; [|reflexivity]. run. cbn [nth]. rewrite (F eq_refl). reflexivity. }
    rewrite S. clear S. cbv iota.
    unfold folded, tail_blanks, fold_breaks. destruct lb.
    - destruct (starts_lf l); [destruct (nonempty tr)|].
      + run. reflexivity.
      + rewrite r_put by (unfold room; cbn; lia). run. reflexivity.
      + run. reflexivity.
    - run. reflexivity.
  Qed.
  (* a word ends at a blank, or a break *)
  Lemma pword_end st t m : is_blankz (nth 0 t 0) = true -> scan_plain_word flow start st (fc t m) = COk st (fc t m).
  Proof. intros Z. destruct st as [[s [[[lb ws] l] tr]] e]. apply loop_end. run. rewrite Z. reflexivity. Qed.
  Lemma pw_blank K L s b e t m : is_blank (nth 0 t 0) || is_break (nth 0 t 0) = true -> pb K L s e b t m -> pw K L (s, b, e) t m.
  Proof.
    intros Z J. unfold pw, bind. rewrite pword_end.
    2:{ unfold is_blankz, is_breakz. apply orb_true_iff in Z as [-> | ->]; rewrite ?orb_true_r; reflexivity. }
    unfold p_rest. run. rewrite Z. cbn [negb]. run. exact J.
  Qed.
  (* the scalar ends without blanks: at the end of the input, *)
  Lemma pw_nul (K : final) L s lb ws l tr e t m : is_z (nth 0 t 0) = true -> K s lb e t m -> pw K L (s, (lb, ws, l, tr), e) t m.
  Proof.
    intros Z J. apply N.eqb_eq in Z. unfold pw, bind. rewrite pword_end by (rewrite Z; reflexivity). unfold p_rest. run. rewrite Z. change (negb (is_blank 0 || is_break 0)) with true. run.
    cbn. eauto.
  Qed.
  (* at ": ", or at a flow indicator *)
  Definition plain_end (t : list N) : Prop :=
    (nth 0 t 0 = 0x3A /\ is_blankz (nth 1 t 0) = true) \/ (flow = true /\ flow_end (nth 0 t 0) = true).
  Lemma flow_end_chars x : flow_end x = true -> is_blankz x = false /\ is_blank x || is_break x = false /\ (x =? 0x3A) = false /\ x <> 0x23 /\ x <> 0x2D /\ x <> 0x2E /\ x <> 0.
  Proof.
    unfold flow_end. cbn [existsb]. intros H. repeat (apply orb_true_iff in H as [H|H]); try discriminate; apply N.eqb_eq in H; subst x; repeat split; try reflexivity; discriminate.
  Qed.
  Lemma plain_end_chars t : plain_end t -> is_blankz (nth 0 t 0) = false /\ is_blank (nth 0 t 0) || is_break (nth 0 t 0) = false /\ nth 0 t 0 <> 0x23 /\ nth 0 t 0 <> 0x2D /\ nth 0 t 0 <> 0x2E.
  Proof.
    intros [[-> _]|[_ H]]; [repeat split; try reflexivity; discriminate|]. destruct (flow_end_chars _ H) as (H1 & H2 & H3 & H4 & H5 & H6 & _). auto.
  Qed.
  Lemma pw_end (K : final) L s lb ws l tr e t m : plain_end t -> K s lb e t m -> pw K L (s, (lb, ws, l, tr), e) t m.
  Proof.
    intros P J. destruct (plain_end_chars t P) as (Z & B & _).
    assert (X : scan_plain_word flow start (s, (lb, ws, l, tr), e) (fc t m) = COk (s, (lb, ws, l, tr), e) (fc t m)).
    { apply loop_end. run. rewrite Z. run. destruct t as [|x t]; [destruct P as [[P _]|[_ P]]; discriminate|]. unfold plain_end in P. cbn [nth] in *.
      assert (S : forall {X} (k : bool -> cm X),
        bind (andc (ret flow) (andc (check 0 (eqc 0x3A)) (check 1 (fun x => flow_end x || (x =? 0x3F))))) k (fc (x :: t) m) = k false (fc (x :: t) m)).
      { intros X k. run. destruct flow eqn:Fl; [|reflexivity]. run. cbn [nth]. unfold eqc. destruct P as [[-> P]|[_ P]].
        - rewrite N.eqb_refl. rewrite (r_check 1); [|cbn; lia|reflexivity]. cbn [nth].
          assert (E : flow_end (nth 0 t 0) || (nth 0 t 0 =? 0x3F) = false); [|rewrite E; reflexivity].
          destruct (flow_end (nth 0 t 0)) eqn:FE; [destruct (flow_end_chars _ FE) as [FE1 _]; congruence|]. destruct (N.eqb_spec (nth 0 t 0) 0x3F) as [E|]; [rewrite E in P; discriminate|reflexivity].
        - destruct (flow_end_chars _ P) as (_ & _ & -> & _). run. reflexivity. }
      rewrite S. clear S. cbv iota.
      assert (S : forall {X} (k : bool -> cm X),
        bind (orc (andc (check 0 (eqc 0x3A)) (check 1 is_blankz)) (andc (ret flow) (check 0 flow_end))) k (fc (x :: t) m) = k true (fc (x :: t) m)).
      { intros X k. rewrite r_or, r_and, r_check0. cbn [nth]. unfold eqc. destruct P as [[-> P]|[P1 P2]].
        - rewrite N.eqb_refl. rewrite (r_check 1); [|cbn; lia|reflexivity]. cbn [nth] in *. rewrite P. reflexivity.
        - destruct (flow_end_chars _ P2) as (_ & _ & -> & _). run. rewrite P1. run. cbn [nth]. rewrite P2. reflexivity. }
      rewrite S. clear S. reflexivity. }
    unfold pw, bind. rewrite X. unfold p_rest. run. rewrite B. cbn [negb]. run. cbn. eauto.
  Qed.

  (* blanks *)
  Lemma pb_blank K L s e ws l tr c t m : is_blank c = true -> pb K L s e (false, ws ++ utf8_enc c, l, tr) t (next_column 1 m) -> pb K L s e (false, ws, l, tr) (c :: t) m.
  Proof. intros Z. unfold pb, scan_plain_blanks. apply pends_loop; [|cbn; lia]. run. cbn [nth]. rewrite Z. run. cbn [andb]. run. reflexivity. Qed.
  Lemma pb_skip K L s e ws l tr t m : pb K L s e (true, ws, l, tr) t (next_column 1 m) -> pb K L s e (true, ws, l, tr) (0x20 :: t) m.
  Proof. unfold pb, scan_plain_blanks. apply pends_loop; [|cbn; lia]. run. cbn [nth]. change (is_blank 0x20) with true. change (is_tab 0x20) with false. run. rewrite andb_false_r. run. reflexivity. Qed.
  Lemma pb_skips K L s e ws l tr n : forall t m, (forall m', m_column m' = m_column m + N.of_nat n -> adv (repeat 0x20 n ++ t) m t m' -> pb K L s e (true, ws, l, tr) t m') ->
    pb K L s e (true, ws, l, tr) (repeat 0x20 n ++ t) m.
  Proof.
    induction n as [|n IH]; intros t m J; [apply J; [lia|constructor]|]. cbn [repeat app]. apply pb_skip. apply IH. intros m' H A. apply J; [cbn [next_column m_column] in H; lia|].
    apply adv_char; [reflexivity|exact A].
  Qed.
  Lemma pb_first_break K L s e ws b bs t m : line_text b bs t -> (forall m', m_column m' = 0 -> adv (b ++ t) m t m' -> pb K L s e (true, [], bs, []) t m') ->
    pb K L s e (false, ws, [], []) (b ++ t) m.
  Proof.
    intros H J. destruct (line_head _ _ _ H) as [Hb Hl].
    destruct (r_line (B := blanks + blanks) [] (fun leading => cache 1 ;;; ret (inl (true, [], leading, []))) b bs t m H) as (m' & [C A] & E).
    unfold pb, scan_plain_blanks. apply (pends_loop _ _ _ _ _ _ _ (true, [], bs, []) t m'); [|rewrite app_length; lia|exact (J m' C A)].
    run. rewrite (break_not_blank _ Hb), Hb. rewrite r_cache. etransitivity; [exact E|]. run. reflexivity.
  Qed.
  Lemma pb_more_break K L s e ws l tr b bs t m : line_text b bs t -> (forall m', m_column m' = 0 -> adv (b ++ t) m t m' -> pb K L s e (true, ws, l, tr ++ bs) t m') ->
    pb K L s e (true, ws, l, tr) (b ++ t) m.
  Proof.
    intros H J. destruct (line_head _ _ _ H) as [Hb Hl].
    destruct (r_line (B := blanks + blanks) tr (fun trailing => cache 1 ;;; ret (inl (true, ws, l, trailing))) b bs t m H) as (m' & [C A] & E).
    unfold pb, scan_plain_blanks. apply (pends_loop _ _ _ _ _ _ _ (true, ws, l, tr ++ bs) t m'); [|rewrite app_length; lia|exact (J m' C A)].
    run. rewrite (break_not_blank _ Hb), Hb. rewrite r_cache. etransitivity; [exact E|]. run. reflexivity.
  Qed.
  (* after the blanks: too little indentation, *)
  Lemma pblanks_end b t m : is_blank (nth 0 t 0) || is_break (nth 0 t 0) = false -> scan_plain_blanks indent start b (fc t m) = COk b (fc t m).
  Proof. intros Z. apply orb_false_iff in Z as [Z1 Z2]. destruct b as [[[lb ws] l] tr]. apply loop_end. run. rewrite Z1, Z2. reflexivity. Qed.
  Lemma pb_dedent (K : final) L s e lb ws l tr t m : is_blank (nth 0 t 0) || is_break (nth 0 t 0) = false -> flow = false -> (Z.of_N (m_column m) < indent)%Z -> K s lb e t m ->
    pb K L s e (lb, ws, l, tr) t m.
  Proof.
    intros Z F C J. unfold pb, bind. rewrite (pblanks_end _ _ _ Z). unfold p_col. run. rewrite F. replace (Z.of_N (m_column m) <? indent)%Z with true by lia. cbn. eauto.
  Qed.
  (* or the next round *)
  Lemma pb_round K L s e b t m : is_blank (nth 0 t 0) || is_break (nth 0 t 0) = false -> flow = true \/ (indent <= Z.of_N (m_column m))%Z -> (length t < L)%nat ->
    pends K (length t) (p_body (s, b, e) (fc t m)) -> pb K L s e b t m.
  Proof.
    intros Z C HL J. unfold pb, bind. rewrite (pblanks_end _ _ _ Z). unfold p_col. run.
    replace (negb flow && (Z.of_N (m_column m) <? indent)%Z) with false by (destruct C as [-> | C]; [reflexivity|replace (Z.of_N (m_column m) <? indent)%Z with false by lia; rewrite andb_false_r; reflexivity]).
    cbn [ret pends c_text fc]. split; [exact HL|]. destruct (p_body (s, b, e) (fc t m)) as [[s1|s1] c1|er| |] eqn:X; try contradiction; cbn [pends] in J.
    - destruct J as [J1 (st' & c' & J2 & J3)]. exists st', c'. split; [exact (loop_go _ _ _ _ _ _ _ X J1 J2)|exact J3].
    - exists s1, c1. split; [exact (loop_end _ _ _ _ _ X)|exact J].
  Qed.
  (* a round goes on with a word, *)
  Lemma p_round K L st t m : at_document_indicator t m = false -> nth 0 t 0 <> 0x23 -> pw K L st t m -> pends K L (p_body st (fc t m)).
  Proof.
    intros C H J. unfold p_body. rewrite r_cache, r_document, C. cbv iota. run. unfold eqc. destruct (N.eqb_spec (nth 0 t 0) 0x23); [contradiction|]. run. exact J.
  Qed.
  (* or stops at a comment, or at a document indicator *)
  Lemma p_comment (K : final) L s lb ws l tr e t m : at_document_indicator t m = false -> nth 0 t 0 = 0x23 -> K s lb e t m -> pends K L (p_body (s, (lb, ws, l, tr), e) (fc t m)).
  Proof.
    intros C H J. unfold p_body. rewrite r_cache, r_document, C. cbv iota. run. rewrite H. change (eqc 0x23 0x23) with true. run. cbn. eauto.
  Qed.
  Lemma p_indicator (K : final) L s lb ws l tr e t m : at_document_indicator t m = true -> K s lb e t m -> pends K L (p_body (s, (lb, ws, l, tr), e) (fc t m)).
  Proof.
    intros C J. unfold p_body. rewrite r_cache, r_document, C. cbn. eauto.
  Qed.
End Plain.
