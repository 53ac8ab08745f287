(* Single-quoted scalars: what the emitter writes is read back. *)
From Verif Require Import Base ReaderModel Utf8Spec Utf8Lemmas CharSpec Types CursorModel CursorProofs ScanModel ScanProofs ScanQuoted PlanFree FullRun QuotedRun WriterModel WriterSpec PenModel PenText EmitModel RoundSpec DoubleTrip.

(* ---- what the analysis says about a string ---- *)
(* a space next to a line break *)
Fixpoint touching (ps pb : bool) (s : list N) : bool :=
  match s with
  | [] => false
  | c :: r => is_space c && pb || negb (is_space c) && is_break c && ps || touching (is_space c) (negb (is_space c) && is_break c) r
  end.
Definition special (unicode : bool) (c : N) : bool := negb (is_printable c) || (negb (is_ascii c) && negb unicode).
Lemma flag_facts u s : forall first pre ps pb f,
  let f' := flag_loop u first pre ps pb s f in
  f_break_space f' || f_space_break f' = f_break_space f || f_space_break f || touching ps pb s /\
  f_special f' = f_special f || existsb (special u) s /\ f_breaks f' = f_breaks f || existsb is_break s.
Proof.
  induction s as [|c r IH]; intros first pre ps pb f; cbn [flag_loop touching existsb]; cbv zeta.
  - rewrite !orb_false_r. auto.
  - destruct (indicators_at first pre (is_blankz (next r)) c) as [bi fi].
    match goal with |- context [flag_loop u false ?a ?b ?d r ?f0] => pose proof (IH false a b d f0) as K end.
    cbv zeta in K. destruct K as (E1 & E2 & E3). rewrite E1, E2, E3. cbn [f_break_space f_space_break f_special f_breaks]. unfold special.
    split; [|split; rewrite <- !orb_assoc; reflexivity].
    destruct (f_break_space f), (f_space_break f), (is_space c), pb, ps, (is_break c); cbn; try reflexivity; rewrite ?orb_true_r; reflexivity.
Qed.
Lemma single_ok u s d : a_single (analyze_scalar u s d) = true -> touching false false s = false /\ existsb (special u) s = false.
Proof.
  unfold analyze_scalar. destruct s as [|c r]; [auto|]. cbn [a_single]. intros H. unfold scalar_flags in H.
  match goal with H : context [flag_loop u true true false false (c :: r) ?f0] |- _ => pose proof (flag_facts u (c :: r) true true false false f0) as K end.
  cbv zeta in K. destruct K as (E1 & E2 & _). cbn [f_break_space f_space_break f_special orb] in E1, E2.
  rewrite !negb_orb in H. apply andb_true_iff in H as [H1 H]. apply andb_true_iff in H as [H2 H3]. apply negb_true_iff in H1, H2, H3.
  rewrite H1, H2 in E1. rewrite H3 in E2. auto.
Qed.
Lemma printable_break u c : special u c = false -> is_break c = true -> c = 0xA \/ c = 0x2028 \/ c = 0x2029.
Proof.
  unfold special, is_break. intros H B. apply orb_false_iff in H as [H _]. apply negb_false_iff in H.
  repeat (apply orb_true_iff in B as [B|B]); apply N.eqb_eq in B; subst c; auto; discriminate H.
Qed.
Lemma printable_plain u c : special u c = false -> is_space c = false -> is_break c = false -> is_blankz c = false.
Proof.
  intros H S B. unfold is_blankz, is_blank, is_breakz, is_tab, is_z. rewrite S, B. unfold special in H. apply orb_false_iff in H as [H _]. apply negb_false_iff in H.
  destruct (N.eqb_spec c 9) as [->|]; [discriminate H|]. destruct (N.eqb_spec c 0) as [->|]; [discriminate H|]. reflexivity.
Qed.

(* ---- the texts ---- *)
Inductive seen := InWord | InSpace | InBreak.
Definition quoted (c : N) : list N := if c =? 0x27 then [0x27; 0x27] else [c].
Definition kept_break (c : N) : Prop := c = 0xA \/ c = 0x2028 \/ c = 0x2029.
Inductive sq (g : cfg) : seen -> list N -> list N -> Prop :=
| sq_nil x : x <> InBreak -> sq g x [] []
| sq_char x c s w : x <> InBreak -> is_blankz c = false -> sq g InWord s w -> sq g x (c :: s) (quoted c ++ w)
| sq_space x s w : x <> InBreak -> sq g InSpace s w -> sq g x (0x20 :: s) (0x20 :: w)
| sq_fold s w n : (1 <= n)%nat -> nth 0 s 0 <> 0x20 -> sq g InSpace s w -> sq g InWord (0x20 :: s) (break_chars g ++ repeat 0x20 n ++ w)
| sq_first c s w : kept_break c -> sq g InBreak s w -> sq g InWord (c :: s) ((if c =? 0xA then break_chars g else []) ++ break_text g c ++ w)
| sq_more c s w : kept_break c -> sq g InBreak s w -> sq g InBreak (c :: s) (break_text g c ++ w)
| sq_pad s w n : (1 <= n)%nat -> nth 0 s 0 <> 0x20 -> sq g InSpace s w -> sq g InBreak s (repeat 0x20 n ++ w).

Lemma sq_head g s w t : sq g InSpace s w -> nth 0 s 0 <> 0x20 -> is_blankz (nth 0 (w ++ 0x27 :: t) 0) = false.
Proof.
  intros D. remember InSpace as x. destruct D; intros N; cbn [nth app]; try discriminate Heqx; try reflexivity.
  - unfold quoted. destruct (c =? 0x27); [reflexivity|exact H0].
  - cbn in N. congruence.
Qed.
(* after a line break there is never a line feed that is not part of it *)
Lemma sq_no_lf g s w t : g_break g = CrBreak -> sq g InBreak s w -> nth 0 (w ++ t) 0 <> 0xA.
Proof.
  intros B D. remember InBreak as x. destruct D; try discriminate Heqx; try congruence.
  - unfold break_text, break_chars. rewrite B. destruct H as [-> | [-> | ->]]; discriminate.
  - rewrite <- app_assoc, nth0_repeat by assumption. discriminate.
Qed.
Lemma kept_line g c s w t : g_break g <> AnyBreak -> kept_break c -> sq g InBreak s w -> line_text (break_text g c) (utf8_enc c) (w ++ t).
Proof.
  intros B K D. unfold break_text. destruct K as [-> | [-> | ->]].
  - change (0xA =? 0xA) with true. cbv iota. destruct (g_break g) eqn:G; [congruence| | |]; unfold break_chars; rewrite G.
    + right; left. split; [reflexivity|]. split; [exact (sq_no_lf g s w t G D)|reflexivity].
    + left. exists 0xA. repeat split; discriminate.
    + right; right. auto.
  - left. exists 0x2028. repeat split; discriminate.
  - left. exists 0x2029. repeat split; discriminate.
Qed.

Section Read.
  Variables (g : cfg) (start : mark).
  Hypothesis B : g_break g <> AnyBreak.
  Notation after := (after true start). Notation afterb := (afterb true start).
  Lemma brk_len : (0 < length (break_chars g))%nat.
  Proof. unfold break_chars. destruct (g_break g); [congruence|cbn; lia..]. Qed.
  Lemma text_len c : (0 < length (break_text g c))%nat.
  Proof. unfold break_text. destruct (c =? 0xA); [exact brk_len|cbn; lia]. Qed.
  Lemma sa_break L acc n t m v t' : (1 <= n)%nat -> (n + length t < L)%nat -> is_blankz (nth 0 t 0) = false ->
    (forall m', m_column m' <> 0 -> after (length t) (acc ++ [0x20]) t m' v t') ->
    after L acc (break_chars g ++ repeat 0x20 n ++ t) m v t'.
  Proof.
    intros Hn HL Z K. apply a_blank.
    { unfold is_blankz, is_breakz. rewrite break_chars_head by exact B. rewrite orb_true_r. reflexivity. }
    apply (b_first_break true start L acc [] (break_chars g) [0xA]); [apply break_line; [exact B|intros _; rewrite nth0_repeat by exact Hn; discriminate]|].
    intros m1 C1. apply b_skips. intros m2 C2. apply b_word; [lia|exact Z|lia|]. apply K. lia.
  Qed.
  Definition held (l tr : list N) : list N := if starts_lf l then tr else l ++ tr.
  Lemma sq_read x s w : sq g x s w -> forall t, nth 0 t 0 <> 0x27 ->
    match x with
    | InBreak => forall L acc l tr m, (starts_lf l = true -> tr <> []) -> (length (w ++ (0x27 :: t)%N) < L)%nat ->
        afterb L acc (true, [], l, tr) (w ++ 0x27 :: t) m (acc ++ held l tr ++ utf8 s) (0x27 :: t)
    | _ => forall L acc m, m_column m <> 0 -> (length (w ++ (0x27 :: t)%N) <= L)%nat ->
        after L acc (w ++ 0x27 :: t) m (acc ++ utf8 s) (0x27 :: t) /\
        (x = InSpace -> (length (w ++ (0x27 :: t)%N) < L)%nat -> forall ws, afterb L acc (false, ws, [], []) (w ++ 0x27 :: t) m (acc ++ ws ++ utf8 s) (0x27 :: t))
    end.
  Proof.
    intros D t T. pose proof brk_len as BL. induction D as [x X|x c s w X Z D IH|x s w X D IH|s w n Hn N D IH|c s w K D IH|c s w K D IH|s w n Hn N D IH].
    - assert (K : forall L acc m, after L acc (0x27 :: t) m acc (0x27 :: t)) by (intros; apply (a_quote true start L acc t m); intros _; exact T).
      destruct x; [| |contradiction]; intros L acc m C H; cbn [app utf8 flat_map] in *; rewrite app_nil_r; (split; [apply K|]); [discriminate|].
      intros _ H1 ws. rewrite app_nil_r. apply b_word; [exact H1|reflexivity|exact C|]. apply K.
    - assert (K : forall L acc m, m_column m <> 0 -> (length ((quoted c ++ w) ++ (0x27 :: t)%N) <= L)%nat -> after L acc ((quoted c ++ w) ++ 0x27 :: t) m (acc ++ utf8 (c :: s)) (0x27 :: t)).
      { intros L acc m C H. change (utf8 (c :: s)) with (utf8_enc c ++ utf8 s). rewrite app_assoc. unfold quoted in *. destruct (N.eqb_spec c 0x27) as [->|Q].
        - cbn [app length] in *. apply a_pair; [reflexivity|]. apply IH; [cbn; lia|lia].
        - cbn [app length] in *. apply a_char; [exact Z|exact Q|discriminate|]. apply IH; [cbn; lia|lia]. }
      assert (Z' : is_blankz (nth 0 ((quoted c ++ w) ++ 0x27 :: t) 0) = false) by (unfold quoted; destruct (c =? 0x27); [reflexivity|exact Z]).
      destruct x; [| |contradiction]; intros L acc m C H; (split; [apply K; assumption|]); [discriminate|].
      intros _ H1 ws. rewrite app_assoc. apply b_word; [exact H1|exact Z'|exact C|]. apply K; [exact C|apply Nat.le_refl].
    - assert (K : forall L acc ws m, m_column m <> 0 -> (length ((0x20 :: w)%N ++ (0x27 :: t)%N) <= L)%nat ->
        afterb L acc (false, ws, [], []) ((0x20 :: w) ++ 0x27 :: t) m (acc ++ ws ++ utf8 (0x20 :: s)) (0x27 :: t)).
      { intros L acc ws m C H. cbn [app length] in *. apply b_blank; [reflexivity|]. change (utf8 (0x20 :: s)) with (utf8_enc 0x20 ++ utf8 s). rewrite (app_assoc ws).
        apply IH; [cbn; lia|lia|reflexivity|lia]. }
      destruct x; [| |contradiction]; intros L acc m C H; (split; [apply a_blank; [reflexivity|]; exact (K L acc [] m C H)|]); [discriminate|].
      intros _ H1 ws. apply K; assumption.
    - intros L acc m C H. split; [|discriminate]. rewrite <- !app_assoc in *. change (utf8 (0x20 :: s)) with ([0x20] ++ utf8 s). rewrite (app_assoc acc).
      apply sa_break; [exact Hn| |apply (sq_head g s w t D N)|].
      + rewrite !app_length, repeat_length in H. rewrite app_length. lia.
      + intros m' C'. apply IH; [exact C'|apply Nat.le_refl].
    - intros L acc m C H. split; [|discriminate]. rewrite <- !app_assoc in *. pose proof (text_len c) as TL. change (utf8 (c :: s)) with (utf8_enc c ++ utf8 s).
      assert (Hb : forall r, is_break (nth 0 (break_text g c ++ r) 0) = true).
      { intros r. unfold break_text. destruct K as [-> | [-> | ->]]; [|reflexivity|reflexivity]. exact (break_chars_head g r B). }
      apply a_blank.
      { unfold is_blankz, is_breakz. destruct (c =? 0xA); [rewrite break_chars_head by exact B|cbn [app]; rewrite Hb]; rewrite orb_true_r; reflexivity. }
      destruct (N.eqb_spec c 0xA) as [->|Q].
      + apply (b_first_break true start L acc [] (break_chars g) [0xA]).
        { apply break_line; [exact B|]. intros G. unfold break_text, break_chars. change (0xA =? 0xA) with true. rewrite G. discriminate. }
        intros m1 C1. apply (b_more_break true start L acc [] [0xA] [] (break_text g 0xA) (utf8_enc 0xA)); [apply (kept_line g 0xA s w _ B K D)|].
        intros m2 C2. apply (IH L acc [0xA] [0xA]); [discriminate|]. rewrite !app_length in *. lia.
      + cbn [app] in *. apply (b_first_break true start L acc [] (break_text g c) (utf8_enc c)); [apply (kept_line g c s w _ B K D)|].
        intros m1 C1. replace (acc ++ utf8_enc c ++ utf8 s) with (acc ++ held (utf8_enc c) [] ++ utf8 s).
        * apply IH; [|rewrite app_length in H; lia]. destruct K as [-> | [-> | ->]]; [contradiction|discriminate|discriminate].
        * unfold held. destruct K as [-> | [-> | ->]]; [contradiction|reflexivity|reflexivity].
    - intros L acc l tr m HT H. rewrite <- app_assoc in *. pose proof (text_len c) as TL. change (utf8 (c :: s)) with (utf8_enc c ++ utf8 s).
      apply (b_more_break true start L acc [] l tr (break_text g c) (utf8_enc c)); [apply (kept_line g c s w _ B K D)|].
      intros m1 C1. replace (acc ++ held l tr ++ utf8_enc c ++ utf8 s) with (acc ++ held l (tr ++ utf8_enc c) ++ utf8 s).
      + apply IH; [|rewrite app_length in H; lia]. intros _ X. apply app_eq_nil in X as [_ X]. revert X. destruct K as [-> | [-> | ->]]; discriminate.
      + unfold held. destruct (starts_lf l); rewrite <- ?app_assoc; reflexivity.
    - intros L acc l tr m HT H. rewrite <- app_assoc in *. apply b_skips. intros m' C'. rewrite app_length, repeat_length in H. apply b_word; [lia|apply (sq_head g s w t D N)|lia|].
      replace (acc ++ held l tr ++ utf8 s) with (folded acc (true, [], l, tr) ++ utf8 s); [apply IH; [lia|apply Nat.le_refl]|].
      unfold folded, held. destruct (starts_lf l) eqn:X; [|rewrite <- !app_assoc; reflexivity]. destruct tr; [exfalso; apply HT; reflexivity|]. cbn [nonempty]. rewrite <- app_assoc. reflexivity.
  Qed.
End Read.

Lemma touching_cons c r ps pb : touching ps pb (c :: r) = false ->
  (is_space c = true -> pb = false) /\ (is_space c = false -> is_break c = true -> ps = false) /\ touching (is_space c) (negb (is_space c) && is_break c) r = false.
Proof.
  cbn [touching]. intros H. apply orb_false_iff in H as [H H3]. apply orb_false_iff in H as [H1 H2]. split; [|split; [|exact H3]].
  - intros E. rewrite E in H1. exact H1.
  - intros E1 E2. rewrite E1, E2 in H2. exact H2.
Qed.
Lemma touching_next r : touching true false r = false -> is_break (nth 0 r 0) = false.
Proof.
  destruct r as [|c r]; [reflexivity|]. intros H. destruct (touching_cons _ _ _ _ H) as (_ & H2 & _). cbn [nth]. destruct (is_break c) eqn:E; [|reflexivity].
  destruct (is_space c) eqn:S; [apply N.eqb_eq in S; subst c; discriminate|]. discriminate (H2 eq_refl eq_refl).
Qed.
Definition close_breaks (g : cfg) (i : Z) (r : pen * bool) : pen := let '(p, breaks) := r in if breaks then write_indent g i p else p.
Definition seen_of (spaces breaks : bool) : seen := if breaks then InBreak else if spaces then InSpace else InWord.
Lemma single_text g i allow u : (1 <= i)%Z -> forall s first (spaces breaks : bool) p, existsb (special u) s = false -> touching spaces breaks s = false ->
  spaces && breaks = false ->
  (if breaks then p_indention p = true /\ p_column p = 0%Z else if spaces then True else p_indention p = false) ->
  exists w, chars (close_breaks g i (single_loop g i allow first spaces breaks s p)) = chars p ++ w /\ sq g (seen_of spaces breaks) s w.
Proof.
  intros Hi s. induction s as [|c r IH]; intros first spaces breaks p F T X H.
  - cbn [single_loop close_breaks]. unfold seen_of. destruct breaks.
    + destruct H as [H1 H2]. destruct (indent_pad g i p ltac:(lia) H1 H2) as (E & _). exists (repeat 0x20 (Z.to_nat i)). rewrite E. split; [reflexivity|].
      rewrite <- (app_nil_r (repeat _ _)). apply sq_pad; [lia|discriminate|apply sq_nil; discriminate].
    + exists []. rewrite app_nil_r. split; [reflexivity|]. apply sq_nil. destruct spaces; discriminate.
  - cbn [existsb] in F. apply orb_false_iff in F as [Fc F]. destruct (touching_cons _ _ _ _ T) as (T1 & T2 & T3). cbn [single_loop].
    destruct (is_space c) eqn:Sp.
    + specialize (T1 eq_refl). subst breaks. apply N.eqb_eq in Sp. subst c. cbn [negb andb] in T3.
      match goal with |- context [if ?b then single_loop _ _ _ _ _ _ _ _ else _] => destruct b eqn:Fo end.
      * apply andb_true_iff in Fo as [Fo Nx]. apply andb_true_iff in Fo as [Fo _]. apply andb_true_iff in Fo as [Fo _]. apply andb_true_iff in Fo as [Fo _]. apply andb_true_iff in Fo as [_ Sf].
        apply negb_true_iff in Sf, Nx. subst spaces. cbn [seen_of].
        destruct (indent_break g i p ltac:(lia) (or_introl H)) as (E1 & E2 & E3 & E4).
        destruct (IH false true false (write_indent g i p) F T3 eq_refl I) as (w & E & D).
        exists (break_chars g ++ repeat 0x20 (Z.to_nat i) ++ w). split; [rewrite E, E1, <- !app_assoc; reflexivity|].
        apply sq_fold; [lia|apply N.eqb_neq; exact Nx|exact D].
      * destruct (IH false true false (pput 0x20 p) F T3 eq_refl I) as (w & E & D).
        exists (0x20 :: w). rewrite E, chars_put, <- app_assoc. split; [reflexivity|]. unfold seen_of. apply sq_space; [destruct spaces; discriminate|exact D].
    + destruct (is_break c) eqn:Bk.
      * specialize (T2 eq_refl eq_refl). subst spaces. cbn [negb andb] in T3. pose proof (printable_break u c Fc Bk) as K.
        match goal with |- context [single_loop g i allow false false true r ?q] => destruct (IH false false true q F T3 eq_refl) as (w & E & D) end.
        { split; [reflexivity|]. cbn. unfold pwrite_break. destruct (c =? 0xA); reflexivity. }
        rewrite E, chars_indention, chars_wbreak. destruct breaks; cbn [negb andb seen_of].
        -- exists (break_text g c ++ w). rewrite <- app_assoc. split; [reflexivity|]. apply sq_more; assumption.
        -- exists ((if c =? 0xA then break_chars g else []) ++ break_text g c ++ w). split; [|apply sq_first; assumption].
           destruct (c =? 0xA); [rewrite chars_break|]; rewrite <- ?app_assoc; reflexivity.
      * cbn [negb andb] in T3. pose proof (printable_plain u c Fc Sp Bk) as Z.
        match goal with |- context [single_loop g i allow false false false r ?q] => destruct (IH false false false q F T3 eq_refl eq_refl) as (w & E & D) end.
        assert (N20 : c <> 0x20) by (apply N.eqb_neq; exact Sp).
        assert (Q : forall q, chars (pput c (if c =? 0x27 then pput 0x27 q else q)) = chars q ++ quoted c).
        { intros q. unfold quoted. destruct (N.eqb_spec c 0x27) as [->|]; rewrite !chars_put, <- ?app_assoc; reflexivity. }
        rewrite E, chars_indention, Q. destruct breaks.
        -- destruct H as [H1 H2]. destruct (indent_pad g i p ltac:(lia) H1 H2) as (E1 & _). rewrite E1.
           exists (repeat 0x20 (Z.to_nat i) ++ quoted c ++ w). split; [rewrite <- !app_assoc; reflexivity|]. apply sq_pad; [lia|exact N20|]. apply sq_char; [discriminate|exact Z|exact D].
        -- exists (quoted c ++ w). rewrite <- app_assoc. split; [reflexivity|]. apply sq_char; [destruct spaces; discriminate|exact Z|exact D].
Qed.

Lemma single_scanned g s w m t : g_break g <> AnyBreak -> nth 0 t 0 <> 0x27 -> sq g InWord s w ->
  exists e, scan_flow_scalar true (fc (0x27 :: w ++ 0x27 :: t) m) = COk (mkToken (TScalar (utf8 s) SingleQuoted) m e false) (fc t e).
Proof.
  intros B T D. apply (quoted_scalar true m); [reflexivity| |].
  - assert (Hb : forall r, nth 0 (break_chars g ++ r) 0 <> 0) by (intros r E; pose proof (break_chars_head g r B) as X; rewrite E in X; discriminate).
    inversion D; subst; cbn [nth app]; try discriminate.
    + unfold quoted. destruct (c =? 0x27); [discriminate|]. cbn. intros ->. discriminate.
    + rewrite <- app_assoc. apply Hb.
    + rewrite <- !app_assoc. destruct H as [-> | [-> | ->]]; [apply Hb|discriminate|discriminate].
  - apply (sq_read g m B InWord s w D t T); [cbn; lia|apply Nat.le_refl].
Qed.
Theorem single_round_trip g i s allow p d : (1 <= i)%Z -> g_break g <> AnyBreak -> a_single (analyze_scalar (g_unicode g) s d) = true ->
  exists sp w, (sp = [] \/ sp = [0x20]) /\ written (write_single g i s allow p) = written p ++ sp ++ w /\
    forall rest, nth 0 rest 0 <> 0x27 -> scans_as (scan_flow_scalar true) w s SingleQuoted rest.
Proof.
  intros Hi B A. destruct (single_ok _ _ _ A) as [T F].
  unfold write_single. destruct (indicator_text [0x27] true false false p) as (sp & E1 & Es & E2 & E3 & E4).
  destruct (single_text g i allow (g_unicode g) Hi s true false false (write_indicator [0x27] true false false p) F T eq_refl) as (w & E & D).
  { rewrite E4, andb_false_r. reflexivity. }
  destruct (single_loop g i allow true false false s (write_indicator [0x27] true false false p)) as [q b]. cbn [close_breaks] in E.
  exists sp, (0x27 :: w ++ [0x27]). split; [rewrite Es; destruct (true && _); auto|]. split.
  { unfold written. fold (chars (set_white (write_indicator [0x27] false false false (if b then write_indent g i q else q)) false false)) (chars p). rewrite chars_white.
    destruct (indicator_text [0x27] false false false (if b then write_indent g i q else q)) as (sp' & E5 & Es' & _).
    cbn [andb] in Es'. subst sp'. rewrite E5, E, E1. cbn [app]. rewrite <- !app_assoc. reflexivity. }
  intros rest R c (Tx & Bd & U).
  change ((0x27 :: w ++ [0x27]) ++ rest) with (0x27 :: (w ++ [0x27]) ++ rest) in Tx. rewrite <- app_assoc in Tx. cbn [app] in Tx.
  destruct (single_scanned g s w (c_mark c) rest B R D) as (e & X).
  destruct (scalar_any_buffer true c 0x27 (w ++ 0x27 :: rest) rest (fun e => mkToken (TScalar (utf8 s) SingleQuoted) (c_mark c) e false) Bd) as (e' & c' & Y & T' & M);
    [rewrite Tx; cbn [app length] in *; rewrite <- app_assoc in U; exact U|exact Tx|discriminate|reflexivity|exists e; exact X|].
  exists c'. rewrite M. auto.
Qed.
