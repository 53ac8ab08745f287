(* How the scanner reads a block scalar, character by character. *)
From Verif Require Import Base ReaderModel Utf8Spec Utf8Lemmas CharSpec Types CursorModel CursorProofs ScanModel PlanFree FullRun QuotedRun.

(* ---- yaml_parser_scan_block_scalar_breaks ---- *)
Definition sb_inner (indent : Z) (_ : unit) : cm (unit + unit) :=
  col <- column ;;
  b <- andc (ret ((indent =? 0)%Z || (Z.of_N col <? indent)%Z)) (check 0 is_space) ;;
  if b then skip ;;; cache 1 ;;; ret (inl tt) else ret (inr tt).
Definition sb_body (start : mark) (indent : Z) (st : Z * list N * mark) : cm (Z * list N * mark + Z * list N * mark) :=
  let '(max_indent, breaks, e) := st in
  cache 1 ;;;
  loop (sb_inner indent) tt ;;;
  col <- column ;;
  let max_indent := Z.max max_indent (Z.of_N col) in
  tab <- andc (ret ((indent =? 0)%Z || (Z.of_N col <? indent)%Z)) (check 0 is_tab) ;;
  if tab then err (Some start) SBlockTab else
  b <- check 0 is_break ;;
  if negb b then ret (inr (max_indent, breaks, e)) else
  cache 2 ;;;
  breaks <- read_line breaks ;;
  e <- get_mark ;;
  ret (inl (max_indent, breaks, e)).
Definition sb_done (pindent indent : Z) (r : Z * list N * mark) : cm (Z * list N * mark) :=
  let '(max_indent, breaks, e) := r in
  let indent := if (indent =? 0)%Z then Z.max (Z.max max_indent (pindent + 1)) 1 else indent in
  ret (indent, breaks, e).
Lemma sb_eq pindent indent breaks start :
  scan_block_scalar_breaks pindent indent breaks start = (e <- get_mark ;; r <- loop (sb_body start indent) (0%Z, breaks, e) ;; sb_done pindent indent r).
Proof. reflexivity. Qed.

(* the indentation of a line *)
Lemma sb_spaces indent k : forall t m, (indent = 0 \/ Z.of_N (m_column m) + Z.of_nat k <= indent)%Z ->
  is_space (nth 0 t 0) = false \/ (indent <> 0 /\ Z.of_N (m_column m) + Z.of_nat k = indent)%Z ->
  exists m', m_column m' = m_column m + N.of_nat k /\ loop (sb_inner indent) tt (fc (repeat 0x20 k ++ t) m) = COk tt (fc t m').
Proof.
  induction k as [|k IH]; intros t m H1 H2.
  - exists m. split; [lia|]. cbn [repeat app]. apply loop_end. unfold sb_inner. run.
    destruct ((indent =? 0)%Z || (Z.of_N (m_column m) <? indent)%Z) eqn:E.
    + run. destruct H2 as [H2|H2]; [rewrite H2; reflexivity|]. exfalso. apply orb_true_iff in E. lia.
    + run. reflexivity.
  - destruct (IH t (next_column 1 m)) as (m' & C & E); [cbn [next_column m_column]; lia|cbn [next_column m_column]; destruct H2; [auto|right; lia]|].
    exists m'. split; [cbn [next_column m_column] in C; lia|]. cbn [repeat app]. apply (loop_go _ _ _ tt (fc (repeat 0x20 k ++ t) (next_column 1 m))); [|cbn [fc c_text length]; apply Nat.lt_succ_diag_r|exact E].
    unfold sb_inner. run. replace ((indent =? 0)%Z || (Z.of_N (m_column m) <? indent)%Z) with true by (symmetry; apply orb_true_iff; lia).
    run. cbn [nth]. change (is_space 0x20) with true. run. reflexivity.
Qed.
(* the line that ends the run of breaks *)
Lemma sb_last start indent mx br e k t m : m_column m = 0 -> (indent = 0 \/ Z.of_nat k <= indent)%Z ->
  is_blank (nth 0 t 0) = false \/ (indent <> 0 /\ Z.of_nat k = indent)%Z -> is_break (nth 0 t 0) = false ->
  exists m', m_column m' = N.of_nat k /\ loop (sb_body start indent) (mx, br, e) (fc (repeat 0x20 k ++ t) m) = COk (Z.max mx (Z.of_nat k), br, e) (fc t m').
Proof.
  intros C H1 H2 Bk. destruct (sb_spaces indent k t m) as (m' & C' & E); [lia| |].
  { destruct H2 as [H2|H2]; [left|right; lia]. unfold is_blank in H2. apply orb_false_iff in H2 as [H2 _]. exact H2. }
  exists m'. split; [lia|]. apply loop_end. unfold sb_body. rewrite r_cache. unfold bind at 1. rewrite E. run.
  replace (Z.of_N (m_column m')) with (Z.of_nat k) by lia.
  assert (T : (indent =? 0)%Z || (Z.of_nat k <? indent)%Z = true -> is_tab (nth 0 t 0) = false).
  { intros X. destruct H2 as [H2|H2]; [unfold is_blank in H2; apply orb_false_iff in H2; apply H2|]. exfalso. apply orb_true_iff in X. lia. }
  destruct ((indent =? 0)%Z || (Z.of_nat k <? indent)%Z); run; [rewrite (T eq_refl); run|]; rewrite Bk; reflexivity.
Qed.
(* an empty line *)
Lemma sb_empty start indent mx br e b bs t m : m_column m = 0 -> line_text b bs t ->
  exists m', m_column m' = 0 /\ sb_body start indent (mx, br, e) (fc (b ++ t) m) = COk (inl (Z.max mx 0, br ++ bs, m')) (fc t m').
Proof.
  intros C L. destruct (line_head _ _ _ L) as [Hb Hl].
  destruct (r_line (B := (Z * list N * mark + Z * list N * mark)) br (fun breaks => e <- get_mark ;; ret (inl (Z.max mx 0, breaks, e))) b bs t m L) as (m' & [C' _] & E).
  exists m'. split; [exact C'|]. unfold sb_body. rewrite r_cache.
  assert (Bl := break_not_blank _ Hb). unfold is_blank in Bl. apply orb_false_iff in Bl as [B1 B2].
  unfold bind at 1. rewrite (loop_end (sb_inner indent) tt (fc (b ++ t) m) tt (fc (b ++ t) m)).
  2:{ unfold sb_inner. run. destruct ((indent =? 0)%Z || _); run; [rewrite B1|]; reflexivity. }
  rewrite r_column, C. change (Z.of_N 0) with 0%Z. rewrite r_and, r_ret. 
  destruct ((indent =? 0)%Z || (0 <? indent)%Z); [rewrite r_check0, B2|rewrite r_ret]; cbv iota; rewrite r_check0, Hb; cbn [negb]; rewrite r_cache; etransitivity; try exact E; reflexivity.
Qed.

(* ---- the lines ---- *)
Section Block.
  Variables (literal : bool) (pindent indent : Z) (start : mark).
  Hypothesis I1 : (1 <= indent)%Z.
  Definition bstate : Type := list N * list N * list N * bool * mark.
  Definition not_end (x : N) : bool := negb (is_breakz x).
  Definition b_done (lb : bool) (s leading : list N) (r : Z * list N * mark) : cm (bstate + bstate) :=
    bind (sb_done pindent indent r) (fun r => let '(_, trailing, e) := r in ret (inl (s, leading, trailing, lb, e))).
  Definition b_tail (lb : bool) (s : list N) : cm (bstate + bstate) :=
    cache 2 ;;;
    leading <- read_line [] ;;
    r <- scan_block_scalar_breaks pindent indent [] start ;;
    let '(_, trailing, e) := r in
    ret (inl (s, leading, trailing, lb, e)).
  Definition b_body (st : bstate) : cm (bstate + bstate) :=
    let '(s, leading, trailing, leading_blank, e) := st in
    col <- column ;;
    more <- andc (ret (Z.of_N col =? indent)%Z) (check 0 (fun x => negb (is_z x))) ;;
    if negb more then ret (inr st) else
    trailing_blank <- check 0 is_blank ;;
    s <- (if negb literal && starts_lf leading && negb leading_blank && negb trailing_blank
          then if nonempty trailing then ret s else put s [0x20]
          else ret (s ++ leading)) ;;
    let s := s ++ trailing in
    leading_blank <- check 0 is_blank ;;
    s <- read_while not_end s ;;
    b_tail leading_blank s.

  (* how it all ends: value, first break, other breaks; what is left *)
  Definition bfinal := list N -> list N -> list N -> list N -> mark -> Prop.
  Definition bfin (K : bfinal) (st : bstate) (c : cur) : Prop :=
    let '(s, l, tr, _, _) := st in exists t m, c = fc t m /\ K s l tr t m.
  Definition bends (K : bfinal) (L : nat) (r : cres (bstate + bstate)) : Prop :=
    match r with
    | COk (inr st) c => bfin K st c
    | COk (inl st) c => (length (c_text c) < L)%nat /\ c = fc (c_text c) (c_mark c) /\ exists st' c', loop b_body st c = COk st' c' /\ bfin K st' c'
    | _ => False
    end.
  (* inside a line *)
  Definition bw (K : bfinal) (L : nat) (s : list N) (lb : bool) (t : list N) (m : mark) : Prop :=
    bends K L (bind (read_while not_end s) (b_tail lb) (fc t m)).
  (* at the beginning of a line, after a line break *)
  Definition bk (K : bfinal) (L : nat) (s : list N) (lb : bool) (l : list N) (st : Z * list N * mark) (t : list N) (m : mark) : Prop :=
    bends K L (bind (loop (sb_body start indent) st) (b_done lb s l) (fc t m)).

  Lemma bends_loop {A B} (body : A -> cm (A + B)) k K L a t m a1 t1 m1 :
    body a (fc t m) = COk (inl a1) (fc t1 m1) -> (length t1 < length t)%nat ->
    bends K L (bind (loop body a1) k (fc t1 m1)) -> bends K L (bind (loop body a) k (fc t m)).
  Proof.
    intros E H J. unfold bind in *. destruct (loop body a1 (fc t1 m1)) as [x c|e| |] eqn:X; try contradiction.
    rewrite (loop_go body a (fc t m) a1 (fc t1 m1) x c E H X). exact J.
  Qed.
  Lemma bw_char K L s lb c t m : is_breakz c = false -> bw K L (s ++ utf8_enc c) lb t (next_column 1 m) -> bw K L s lb (c :: t) m.
  Proof.
    intros Z. unfold bw, read_while. apply bends_loop; [|cbn; lia]. run. cbn [nth]. unfold not_end. rewrite Z. cbn [negb]. run. reflexivity.
  Qed.
  Lemma bw_break K L s lb b bs t m : line_text b bs t -> (forall m', m_column m' = 0 -> bk K L s lb bs (0%Z, [], m') t m') -> bw K L s lb (b ++ t) m.
  Proof.
    intros LT J. destruct (line_head _ _ _ LT) as [Hb Hl]. unfold bw, bind at 1. unfold read_while. rewrite (loop_end _ s (fc (b ++ t) m) s (fc (b ++ t) m)).
    2:{ rewrite r_check0. unfold not_end, is_breakz. rewrite Hb. reflexivity. }
    unfold b_tail. rewrite r_cache. edestruct (r_line (B := bstate + bstate) []) as (m' & [C A] & E); [exact LT|].
    erewrite E. cbn [app]. rewrite sb_eq, r_bind, r_mark, r_bind. exact (J m' C).
  Qed.
  Lemma bk_break K L s lb l mx br e b bs t m : m_column m = 0 -> line_text b bs t ->
    (forall mx' m', m_column m' = 0 -> bk K L s lb l (mx', br ++ bs, m') t m') -> bk K L s lb l (mx, br, e) (b ++ t) m.
  Proof.
    intros C LT J. destruct (line_head _ _ _ LT) as [Hb Hl]. destruct (sb_empty start indent mx br e b bs t m C LT) as (m' & C' & E).
    unfold bk. eapply bends_loop; [exact E|rewrite app_length; lia|]. apply J. exact C'.
  Qed.
  (* the end *)
  Lemma bk_end (K : bfinal) L s lb l mx br e k t m : m_column m = 0 -> (Z.of_nat k < indent)%Z -> is_blank (nth 0 t 0) = false -> is_break (nth 0 t 0) = false ->
    (length t < L)%nat -> (forall m', m_column m' = N.of_nat k -> K s l br t m') -> bk K L s lb l (mx, br, e) (repeat 0x20 k ++ t) m.
  Proof.
    intros C Hk Bl Bk HL J. destruct (sb_last start indent mx br e k t m C ltac:(lia) (or_introl Bl) Bk) as (m' & C' & E).
    unfold bk, bind at 1. rewrite E. unfold b_done, sb_done. run. unfold ret, bends. cbn [fc c_text]. split; [exact HL|]. split; [reflexivity|].
    eexists _, _. split; [apply loop_end; unfold b_body; run; replace (Z.of_N (m_column m') =? indent)%Z with false by lia; run; reflexivity|].
    cbn [bfin]. exists t, m'. split; [reflexivity|]. apply J. exact C'.
  Qed.
  (* the first character of a line *)
  Definition joined (s : list N) (lb : bool) (l tr : list N) (blank : bool) : list N :=
    (if negb literal && starts_lf l && negb lb && negb blank then if nonempty tr then s else s ++ [0x20] else s ++ l) ++ tr.
  Lemma b_line K L s lb l tr e t m : Z.of_N (m_column m) = indent -> is_breakz (nth 0 t 0) = false ->
    bw K L (joined s lb l tr (is_blank (nth 0 t 0))) (is_blank (nth 0 t 0)) t m -> bends K L (b_body (s, l, tr, lb, e) (fc t m)).
  Proof.
    intros C Z J. unfold b_body. run. replace (Z.of_N (m_column m) =? indent)%Z with true by lia. run.
    assert (Z' : is_z (nth 0 t 0) = false) by (unfold is_breakz in Z; apply orb_false_iff in Z; tauto).
    rewrite Z'. cbn [negb]. cbv iota. rewrite r_check0. unfold bw, joined in J.
    destruct (negb literal && starts_lf l && negb lb && negb (is_blank (nth 0 t 0))); [destruct (nonempty tr)|]; try rewrite r_put by (unfold room; cbn; lia); try rewrite r_ret; rewrite r_check0; exact J.
  Qed.
  Lemma bends_round K L t st m : (length t < L)%nat -> bends K (length t) (b_body st (fc t m)) ->
    bends K L (COk (inl st) (fc t m)).
  Proof.
    intros HL J. cbn [bends fc c_text]. split; [exact HL|]. split; [reflexivity|]. unfold bends in J. destruct (b_body st (fc t m)) as [[st'|st'] c|er| |] eqn:E; try contradiction.
    - destruct J as (J1 & _ & st2 & c2 & J2 & J3). exists st2, c2. split; [|exact J3]. eapply loop_go; [exact E|exact J1|exact J2].
    - exists st', c. split; [apply loop_end; exact E|exact J].
  Qed.
  Lemma bk_line K L s lb l mx br e t m : m_column m = 0 -> is_breakz (nth 0 t 0) = false -> (length t < L)%nat ->
    (forall m', bw K (length t) (joined s lb l br (is_blank (nth 0 t 0))) (is_blank (nth 0 t 0)) t m') ->
    bk K L s lb l (mx, br, e) (repeat 0x20 (Z.to_nat indent) ++ t) m.
  Proof.
    intros C Z HL J. assert (Bk : is_break (nth 0 t 0) = false) by (unfold is_breakz in Z; apply orb_false_iff in Z; tauto).
    assert (Q1 : (indent = 0 \/ Z.of_nat (Z.to_nat indent) <= indent)%Z) by lia.
    assert (Q2 : (indent <> 0 /\ Z.of_nat (Z.to_nat indent) = indent)%Z) by lia.
    destruct (sb_last start indent mx br e (Z.to_nat indent) t m C Q1 (or_intror Q2) Bk) as (m' & C' & E).
    unfold bk, bind at 1. rewrite E. unfold b_done, sb_done. run. unfold ret. apply bends_round; [exact HL|]. apply b_line; [lia|exact Z|apply J].
  Qed.
End Block.
