(* How the scanner reads a quoted scalar, character by character. *)
From Verif Require Import Base ReaderModel Utf8Spec Utf8Lemmas CharSpec Types CursorModel CursorProofs ScanModel PlanFree FullRun.

Lemma zb c : is_blankz c = false -> is_z c = false /\ is_blank c = false /\ is_break c = false.
Proof. unfold is_blankz, is_breakz. intros H. apply orb_false_iff in H as [H1 H]. apply orb_false_iff in H as [H2 H3]. auto. Qed.

Section Quoted.
  Variables (single : bool) (start : mark).
  Let quote := if single then 0x27 else 0x22.
  (* the body of the outer loop *)
  Definition q_rest (w : list N * bool) : cm (list N + list N) :=
    let '(s, lb) := w in
    cache 1 ;;;
    q <- check 0 (eqc quote) ;;
    if q then ret (inr s) else
    cache 1 ;;;
    b <- scan_quoted_blanks (lb, [], [], []) ;;
    let '(lb, ws, leading, trailing) := b in
    s <- (if lb then fold_breaks s leading trailing else ret (s ++ ws)) ;;
    ret (inl s).
  Definition q_body (s : list N) : cm (list N + list N) :=
    cache 4 ;;;
    ind <- document_indicator ;;
    if ind then err (Some start) SQuotedIndicator else
    z <- check 0 is_z ;;
    if z then err (Some start) SQuotedEnd else
    cache 2 ;;;
    w <- scan_quoted_word single start s ;;
    q_rest w.

  (* the outer loop, entered at [t], comes to the quote with value [v] *)
  Definition yields (r : cres (list N)) (v t : list N) : Prop := exists m, r = COk v (fc t m).
  (* the rest of the outer body, then the loop *)
  Definition ends (L : nat) (r : cres (list N + list N)) (v t' : list N) : Prop :=
    match r with
    | COk (inr s) c => s = v /\ exists m, c = fc t' m
    | COk (inl s) c => (length (c_text c) < L)%nat /\ yields (loop q_body s c) v t'
    | _ => False
    end.
  (* inside a word; inside blanks *)
  Definition after (L : nat) (acc t : list N) (m : mark) (v t' : list N) : Prop :=
    ends L (bind (scan_quoted_word single start acc) q_rest (fc t m)) v t'.
  Definition q_fold (s : list N) (b : blanks) : cm (list N + list N) :=
    let '(lb, ws, leading, trailing) := b in
    s <- (if lb then fold_breaks s leading trailing else ret (s ++ ws)) ;;
    ret (inl s).
  Definition afterb (L : nat) (acc : list N) (b : blanks) (t : list N) (m : mark) (v t' : list N) : Prop :=
    ends L (bind (scan_quoted_blanks b) (q_fold acc) (fc t m)) v t'.

  Lemma ends_loop {A} (body : A -> cm (A + (list N * bool))) L a t m a1 t1 m1 v t' :
    body a (fc t m) = COk (inl a1) (fc t1 m1) -> (length t1 < length t)%nat ->
    ends L (bind (loop body a1) q_rest (fc t1 m1)) v t' -> ends L (bind (loop body a) q_rest (fc t m)) v t'.
  Proof.
    intros E H K. unfold bind in *. destruct (loop body a1 (fc t1 m1)) as [x c|e| |] eqn:X; try contradiction.
    rewrite (loop_go body a (fc t m) a1 (fc t1 m1) x c E H X). exact K.
  Qed.
  Lemma ends_loopb (body : blanks -> cm (blanks + blanks)) L s a t m a1 t1 m1 v t' :
    body a (fc t m) = COk (inl a1) (fc t1 m1) -> (length t1 < length t)%nat ->
    ends L (bind (loop body a1) (q_fold s) (fc t1 m1)) v t' -> ends L (bind (loop body a) (q_fold s) (fc t m)) v t'.
  Proof.
    intros E H K. unfold bind in *. destruct (loop body a1 (fc t1 m1)) as [x c|e| |] eqn:X; try contradiction.
    rewrite (loop_go body a (fc t m) a1 (fc t1 m1) x c E H X). exact K.
  Qed.

  (* an ordinary character *)
  Lemma a_char L acc c t m v t' : is_blankz c = false -> c <> quote -> (single = false -> c <> 0x5C) ->
    after L (acc ++ utf8_enc c) t (next_column 1 m) v t' -> after L acc (c :: t) m v t'.
  Proof.
    intros Z Q S. unfold after, scan_quoted_word. apply ends_loop; [|cbn; lia].
    run. cbn [nth]. rewrite Z. run. unfold quote in Q. destruct single.
    - run. cbn [nth]. unfold eqc. destruct (N.eqb_spec c 0x27); [contradiction|]. run. cbn [nth]. destruct (N.eqb_spec c 0x27); [contradiction|]. run. cbn [negb]. run. reflexivity.
    - run. cbn [nth]. unfold eqc. destruct (N.eqb_spec c 0x22); [contradiction|]. run. cbn [negb]. run. cbn [nth]. destruct (N.eqb_spec c 0x5C) as [E|E]; [exfalso; exact (S eq_refl E)|]. run. cbn [nth]. destruct (N.eqb_spec c 0x5C) as [E'|E']; [contradiction|]. run. reflexivity.
  Qed.
  (* two single quotes *)
  Lemma a_pair L acc t m v t' : single = true ->
    after L (acc ++ [0x27]) t (next_column 1 (next_column 1 m)) v t' -> after L acc (0x27 :: 0x27 :: t) m v t'.
  Proof.
    intros S. unfold after, scan_quoted_word. apply ends_loop; [|cbn; lia].
    run. cbn [nth]. change (is_blankz 0x27) with false. run. rewrite S. run. cbn [nth]. change (eqc 0x27 0x27) with true. run.
    rewrite (r_check 1); [|cbn; lia|reflexivity]. cbn [nth]. change (eqc 0x27 0x27) with true. cbv iota.
    rewrite r_put by (unfold room; cbn; lia). run. reflexivity.
  Qed.
  (* the closing quote *)
  Lemma word_ends acc t m : is_blankz (nth 0 t 0) = true -> scan_quoted_word single start acc (fc t m) = COk (acc, false) (fc t m).
  Proof. intros Z. apply loop_end. run. rewrite Z. reflexivity. Qed.
  Lemma quote_plain : is_blankz quote = false /\ quote <> 0x5C.
  Proof. unfold quote. destruct single; split; (reflexivity || discriminate). Qed.
  Lemma word_quote acc t m : (single = true -> nth 0 t 0 <> 0x27) -> scan_quoted_word single start acc (fc (quote :: t) m) = COk (acc, false) (fc (quote :: t) m).
  Proof.
    intros S. apply loop_end. run. cbn [nth]. rewrite (proj1 quote_plain). run. unfold quote in *. destruct single.
    - run. cbn [nth]. change (eqc 0x27 0x27) with true. run. rewrite (r_check 1); [|cbn; lia|reflexivity]. cbn [nth]. unfold eqc.
      destruct (N.eqb_spec (nth 0 t 0) 0x27) as [X|X]; [exfalso; exact (S eq_refl X)|]. run. cbn [nth]. rewrite N.eqb_refl. reflexivity.
    - run. cbn [nth]. reflexivity.
  Qed.
  Lemma a_quote L acc t m : (single = true -> nth 0 t 0 <> 0x27) -> after L acc (quote :: t) m acc (quote :: t).
  Proof.
    intros S. unfold after, bind. rewrite (word_quote _ _ _ S). unfold q_rest. run. cbn [nth]. unfold eqc. rewrite N.eqb_refl. cbn. eauto.
  Qed.
  (* from a word to the blanks after it *)
  Lemma a_blank L acc t m v t' : is_blankz (nth 0 t 0) = true -> afterb L acc (false, [], [], []) t m v t' -> after L acc t m v t'.
  Proof.
    intros Z K. unfold after, bind. rewrite (word_ends _ _ _ Z). unfold q_rest. run. unfold eqc.
    destruct (N.eqb_spec (nth 0 t 0) quote) as [E|E]; [rewrite E, (proj1 quote_plain) in Z; discriminate|]. run. exact K.
  Qed.
  Lemma b_blank L acc ws l tr c t m v t' : is_blank c = true -> afterb L acc (false, ws ++ utf8_enc c, l, tr) t (next_column 1 m) v t' ->
    afterb L acc (false, ws, l, tr) (c :: t) m v t'.
  Proof.
    intros Z. unfold afterb, scan_quoted_blanks. apply ends_loopb; [|cbn; lia]. run. cbn [nth]. rewrite Z. run. reflexivity.
  Qed.
  Lemma b_skip L acc ws l tr c t m v t' : is_blank c = true -> afterb L acc (true, ws, l, tr) t (next_column 1 m) v t' ->
    afterb L acc (true, ws, l, tr) (c :: t) m v t'.
  Proof.
    intros Z. unfold afterb, scan_quoted_blanks. apply ends_loopb; [|cbn; lia]. run. cbn [nth]. rewrite Z. run. reflexivity.
  Qed.
  Lemma b_skips L acc ws l tr n : forall t m v t', (forall m', m_column m' = m_column m + N.of_nat n -> afterb L acc (true, ws, l, tr) t m' v t') ->
    afterb L acc (true, ws, l, tr) (repeat 0x20 n ++ t) m v t'.
  Proof.
    induction n as [|n IH]; intros t m v t' K; [apply K; lia|]. cbn [repeat app]. apply b_skip; [reflexivity|]. apply IH. intros m' H. apply K. cbn [next_column m_column] in H. lia.
  Qed.
  (* a line break, in one or two characters *)
  Definition line_text (b bs r : list N) : Prop :=
    (exists x, b = [x] /\ is_break x = true /\ x <> 0xD /\ bs = (if (x =? 0x2028) || (x =? 0x2029) then utf8_enc x else [0xA])) \/
    (b = [0xD] /\ nth 0 r 0 <> 0xA /\ bs = [0xA]) \/ (b = [0xD; 0xA] /\ bs = [0xA]).
  Lemma r_line {B} s (k : list N -> cm B) b bs t m : line_text b bs t ->
    exists m', (m_column m' = 0 /\ adv (b ++ t) m t m') /\ bind (read_line s) k (fc (b ++ t) m) = k (s ++ bs) (fc t m').
  Proof.
    intros [(x & -> & H & N & ->)|[(-> & N & ->)|(-> & ->)]].
    - exists (next_line 1 m). split; [split; [reflexivity|]|apply r_read_line; assumption]. apply adv_line; [exact H| |constructor]. destruct (N.eqb_spec x 0xD); [contradiction|reflexivity].
    - exists (next_line 1 m). split; [split; [reflexivity|]|apply r_read_line_cr; assumption]. apply adv_line; [reflexivity| |constructor]. destruct (N.eqb_spec (nth 0 t 0) 0xA); [contradiction|reflexivity].
    - exists (next_line 2 m). split; [split; [reflexivity|]|apply r_read_line_crlf]. apply adv_crlf. constructor.
  Qed.
  Lemma line_head b bs r : line_text b bs r -> is_break (nth 0 (b ++ r) 0) = true /\ (0 < length b)%nat.
  Proof. intros [(x & -> & H & N & ->)|[(-> & N & ->)|(-> & ->)]]; cbn; split; auto; lia. Qed.
  Lemma break_not_blank c : is_break c = true -> is_blank c = false.
  Proof.
    unfold is_break, is_blank, is_space, is_tab. intros H. destruct (N.eqb_spec c 0x20) as [->|]; [discriminate|]. destruct (N.eqb_spec c 9) as [->|]; [discriminate|]. reflexivity.
  Qed.
  Lemma b_first_break L acc ws b bs t m v t' : line_text b bs t -> (forall m', m_column m' = 0 -> afterb L acc (true, [], bs, []) t m' v t') ->
    afterb L acc (false, ws, [], []) (b ++ t) m v t'.
  Proof.
    intros H K. destruct (line_head _ _ _ H) as [Hb Hl].
    match goal with |- context [afterb L acc (false, ws, [], []) (b ++ t)] => idtac end.
    destruct (r_line (B := blanks + blanks) [] (fun leading => cache 1 ;;; ret (inl (true, [], leading, []))) b bs t m H) as (m' & [C _] & E).
    unfold afterb, scan_quoted_blanks. apply (ends_loopb _ _ _ _ _ _ (true, [], bs, []) t m'); [|rewrite app_length; lia|exact (K m' C)].
    run. rewrite (break_not_blank _ Hb), Hb. rewrite r_cache. etransitivity; [exact E|]. run. reflexivity.
  Qed.
  Lemma b_more_break L acc ws l tr b bs t m v t' : line_text b bs t -> (forall m', m_column m' = 0 -> afterb L acc (true, ws, l, tr ++ bs) t m' v t') ->
    afterb L acc (true, ws, l, tr) (b ++ t) m v t'.
  Proof.
    intros H K. destruct (line_head _ _ _ H) as [Hb Hl].
    destruct (r_line (B := blanks + blanks) tr (fun trailing => cache 1 ;;; ret (inl (true, ws, l, trailing))) b bs t m H) as (m' & [C _] & E).
    unfold afterb, scan_quoted_blanks. apply (ends_loopb _ _ _ _ _ _ (true, ws, l, tr ++ bs) t m'); [|rewrite app_length; lia|exact (K m' C)].
    run. rewrite (break_not_blank _ Hb), Hb. rewrite r_cache. etransitivity; [exact E|]. run. reflexivity.
  Qed.
  (* from blanks to the word after them *)
  Definition folded (acc : list N) (b : blanks) : list N :=
    let '(lb, ws, l, tr) := b in
    if lb then if starts_lf l then if nonempty tr then acc ++ tr else acc ++ [0x20] else acc ++ l ++ tr else acc ++ ws.
  Lemma b_word L acc b t m v t' : (length t < L)%nat -> is_blankz (nth 0 t 0) = false -> m_column m <> 0 ->
    after (length t) (folded acc b) t m v t' -> afterb L acc b t m v t'.
  Proof.
    intros HL Z C K. destruct (zb _ Z) as (Z1 & Z2 & Z3). destruct b as [[[lb ws] l] tr].
    assert (E : scan_quoted_blanks (lb, ws, l, tr) (fc t m) = COk (lb, ws, l, tr) (fc t m)).
    { apply loop_end. run. rewrite Z2, Z3. reflexivity. }
    unfold afterb, bind. rewrite E.
    assert (F : q_fold acc (lb, ws, l, tr) (fc t m) = COk (inl (folded acc (lb, ws, l, tr))) (fc t m)).
    { unfold q_fold, folded, fold_breaks. destruct lb; [|reflexivity]. destruct (starts_lf l); [|reflexivity]. destruct (nonempty tr); [reflexivity|].
      rewrite r_put by (unfold room; cbn; lia). reflexivity. }
    rewrite F. cbn [ends c_text fc]. split; [exact HL|].
    set (acc1 := folded acc (lb, ws, l, tr)) in *.
    assert (G : q_body acc1 (fc t m) = bind (scan_quoted_word single start acc1) q_rest (fc t m)).
    { unfold q_body. run. unfold document_indicator. run. destruct (N.eqb_spec (m_column m) 0); [contradiction|]. run. rewrite Z1. run. reflexivity. }
    unfold after in K. rewrite <- G in K. destruct (q_body acc1 (fc t m)) as [[s1|s1] c1|e| |] eqn:X; try contradiction; cbn [ends] in K.
    - destruct K as [K1 (m1 & K2)]. exists m1. exact (loop_go _ _ _ _ _ _ _ X K1 K2).
    - destruct K as [-> [m1 ->]]. exists m1. exact (loop_end _ _ _ _ _ X).
  Qed.
  (* the whole scalar *)
  Lemma quoted_scalar t v t' m : m = start -> nth 0 t 0 <> 0 ->
    after (length t) [] t (next_column 1 m) v (quote :: t') ->
    exists e, scan_flow_scalar single (fc (quote :: t) m) = COk (mkToken (TScalar v (if single then SingleQuoted else DoubleQuoted)) m e false) (fc t' e).
  Proof.
    intros -> Z K. unfold scan_flow_scalar. run.
    match goal with |- context [bind (loop ?body []) _] => change body with q_body end.
    assert (G : q_body [] (fc t (next_column 1 start)) = bind (scan_quoted_word single start []) q_rest (fc t (next_column 1 start))).
    { unfold q_body. run. unfold document_indicator. run. cbn [next_column m_column]. destruct (N.eqb_spec (m_column start + 1) 0); [lia|]. run.
      unfold is_z. destruct (N.eqb_spec (nth 0 t 0) 0); [contradiction|]. run. reflexivity. }
    unfold after in K. rewrite <- G in K.
    assert (Y : yields (loop q_body [] (fc t (next_column 1 start))) v (quote :: t')).
    { destruct (q_body [] (fc t (next_column 1 start))) as [[s1|s1] c1|e| |] eqn:X; try contradiction; cbn [ends] in K.
      - destruct K as [K1 (m1 & K2)]. exists m1. exact (loop_go _ _ _ _ _ _ _ X K1 K2).
      - destruct K as [-> [m1 ->]]. exists m1. exact (loop_end _ _ _ _ _ X). }
    destruct Y as [m1 Y]. exists (next_column 1 m1). unfold bind at 1. rewrite Y. run. reflexivity.
  Qed.
End Quoted.
