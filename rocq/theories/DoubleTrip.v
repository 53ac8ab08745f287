(* Double-quoted scalars: what the emitter writes is read back. *)
From Verif Require Import Base ReaderModel Utf8Spec Utf8Lemmas CharSpec Types CursorModel CursorProofs ScanModel ScanProofs ScanQuoted PlanFree FullRun QuotedRun EscapeRun WriterModel WriterSpec PenModel PenText RoundSpec.

(* The texts for a string [s]: characters that need no escape, escapes, spaces, and
   folded spaces.  The flag: the last character written is a space that is not escaped. *)
Inductive dq (brk : list N) : bool -> list N -> list N -> Prop :=
| dq_nil b : dq brk b [] []
| dq_char b c s w : is_blankz c = false -> c <> 0x22 -> c <> 0x5C -> dq brk false s w -> dq brk b (c :: s) (c :: w)
| dq_esc b c s w : scalar_value c -> c <> 0x20 -> dq brk false s w -> dq brk b (c :: s) (0x5C :: escape_code c ++ w)
| dq_space b s w : dq brk true s w -> dq brk b (0x20 :: s) (0x20 :: w)
| dq_fold s w n : (1 <= n)%nat -> nth 0 s 0 <> 0x20 -> dq brk true s w -> dq brk false (0x20 :: s) (brk ++ repeat 0x20 n ++ w)
| dq_fold2 s w n : (1 <= n)%nat -> dq brk true s w -> dq brk false (0x20 :: 0x20 :: s) (brk ++ repeat 0x20 n ++ 0x5C :: 0x20 :: w).

Lemma break_line g t : g_break g <> AnyBreak -> (g_break g = CrBreak -> nth 0 t 0 <> 0xA) -> line_text (break_chars g) [0xA] t.
Proof.
  intros B N. unfold line_text, break_chars. destruct (g_break g); [congruence|right; left; auto| |right; right; auto].
  left. exists 0xA. repeat split; discriminate.
Qed.
Lemma break_chars_head g t : g_break g <> AnyBreak -> is_break (nth 0 (break_chars g ++ t) 0) = true.
Proof. unfold break_chars. destruct (g_break g); [congruence|reflexivity..]. Qed.
Lemma nth0_repeat n t : (1 <= n)%nat -> nth 0 (repeat 0x20 n ++ t) 0 = 0x20.
Proof. destruct n; [lia|reflexivity]. Qed.

Lemma dq_head g s w : g_break g <> AnyBreak -> dq (break_chars g) true s w -> nth 0 s 0 <> 0x20 -> forall t, is_blankz (nth 0 (w ++ 0x22 :: t) 0) = false.
Proof.
  intros B D. remember true as b. destruct D; intros N t; cbn [nth app]; try discriminate Heqb; try reflexivity; try assumption. cbn in N. congruence.
Qed.

Section Read.
  Variables (g : cfg) (start : mark).
  Hypothesis B : g_break g <> AnyBreak.
  Notation after := (after false start). Notation afterb := (afterb false start).
  (* one line break and the indentation *)
  Lemma a_break L acc n t m v t' : (1 <= n)%nat -> (n + length t < L)%nat -> is_blankz (nth 0 t 0) = false ->
    (forall m', m_column m' <> 0 -> after (length t) (acc ++ [0x20]) t m' v t') ->
    after L acc (break_chars g ++ repeat 0x20 n ++ t) m v t'.
  Proof.
    intros Hn HL Z K. apply a_blank.
    { unfold is_blankz, is_breakz. rewrite break_chars_head by exact B. rewrite orb_true_r. reflexivity. }
    apply (b_first_break false start L acc [] (break_chars g) [0xA]); [apply break_line; [exact B|intros _; rewrite nth0_repeat by exact Hn; discriminate]|].
    intros m1 C1. apply b_skips. intros m2 C2. apply b_word; [lia|exact Z|lia|]. apply K. lia.
  Qed.
  Lemma dq_read b s w : dq (break_chars g) b s w ->
    forall t, (forall L acc m, m_column m <> 0 -> (length (w ++ (0x22 :: t)%N) <= L)%nat -> after L acc (w ++ 0x22 :: t) m (acc ++ utf8 s) (0x22 :: t)) /\
      (b = true -> forall L acc ws m, m_column m <> 0 -> (length (w ++ (0x22 :: t)%N) < L)%nat -> afterb L acc (false, ws, [], []) (w ++ 0x22 :: t) m (acc ++ ws ++ utf8 s) (0x22 :: t)).
  Proof.
    intros D. induction D as [b|b c s w Z Q E D IH|b c s w S N D IH|b s w D IH|s w n Hn N D IH|s w n Hn D IH]; intros t.
    - assert (K : forall L acc m, after L acc (0x22 :: t) m acc (0x22 :: t)) by (intros; apply (a_quote false start L acc t m); discriminate).
      split; [intros; cbn [app utf8 flat_map]; rewrite app_nil_r; apply K|].
      intros _ L acc ws m C H. cbn [app utf8 flat_map] in *. rewrite app_nil_r. apply b_word; [exact H|reflexivity|exact C|]. apply K.
    - assert (K : forall L acc m, m_column m <> 0 -> (length (c :: w ++ (0x22 :: t)%N) <= L)%nat -> after L acc (c :: w ++ 0x22 :: t) m (acc ++ utf8 (c :: s)) (0x22 :: t)).
      { intros L acc m C H. apply a_char; [exact Z|exact Q|intros _; exact E|]. change (utf8 (c :: s)) with (utf8_enc c ++ utf8 s). rewrite app_assoc.
        apply (IH t); [cbn; lia|cbn [length] in H; lia]. }
      split; [exact K|]. intros _ L acc ws m C H. rewrite app_assoc. apply b_word; [exact H|exact Z|exact C|]. apply K; [exact C|apply Nat.le_refl].
    - assert (K : forall L acc m, m_column m <> 0 -> (length (((0x5C :: escape_code c ++ w) ++ 0x22 :: t)%N) <= L)%nat ->
        after L acc ((0x5C :: escape_code c ++ w) ++ 0x22 :: t) m (acc ++ utf8 (c :: s)) (0x22 :: t)).
      { intros L acc m C H. cbn [app] in *. rewrite <- app_assoc in *. apply a_escape; [exact S|]. intros m' C'. change (utf8 (c :: s)) with (utf8_enc c ++ utf8 s). rewrite app_assoc.
        apply (IH t); [lia|cbn [length] in H; rewrite app_length in H; lia]. }
      split; [exact K|]. intros _ L acc ws m C H. rewrite app_assoc. apply b_word; [exact H|reflexivity|exact C|]. apply K; [exact C|apply Nat.le_refl].
    - assert (K : forall L acc ws m, m_column m <> 0 -> (length (((0x20 :: w) ++ 0x22 :: t)%N) <= L)%nat ->
        afterb L acc (false, ws, [], []) ((0x20 :: w) ++ 0x22 :: t) m (acc ++ ws ++ utf8 (0x20 :: s)) (0x22 :: t)).
      { intros L acc ws m C H. cbn [app length] in *. apply b_blank; [reflexivity|]. change (utf8 (0x20 :: s)) with (utf8_enc 0x20 ++ utf8 s). rewrite (app_assoc ws).
        apply (proj2 (IH t)); [reflexivity|cbn; lia|lia]. }
      split; [|intros _ L acc ws m C H; apply K; [exact C|lia]]. intros L acc m C H. apply a_blank; [reflexivity|]. exact (K L acc [] m C H).
    - split; [|discriminate]. intros L acc m C H. rewrite <- !app_assoc in *. change (utf8 (0x20 :: s)) with ([0x20] ++ utf8 s). rewrite (app_assoc acc).
      pose proof (break_chars_head g (repeat 0x20 n ++ w ++ 0x22 :: t) B) as Hb.
      apply a_break; [exact Hn| |apply (dq_head g s w B D N)|].
      + rewrite !app_length, repeat_length in H. rewrite ?app_length. cbn [length] in *. assert (0 < length (break_chars g))%nat by (unfold break_chars; destruct (g_break g); [congruence|cbn; lia..]). lia.
      + intros m' C'. apply (IH t); [exact C'|apply Nat.le_refl].
    - split; [|discriminate]. intros L acc m C H. rewrite <- !app_assoc in *. cbn [app] in *. change (utf8 (0x20 :: 0x20 :: s)) with ([0x20] ++ [0x20] ++ utf8 s). rewrite (app_assoc acc), (app_assoc _ [0x20]).
      apply a_break; [exact Hn| |reflexivity|].
      + rewrite !app_length, repeat_length in H. rewrite ?app_length. cbn [length] in *. assert (0 < length (break_chars g))%nat by (unfold break_chars; destruct (g_break g); [congruence|cbn; lia..]). lia.
      + intros m' C'. apply a_escaped_space. intros m2 C2. apply (IH t); [lia|cbn [length]; lia].
  Qed.
End Read.

(* what the emitter writes is such a text *)
Lemma dq_space_inv brk s w : dq brk true (0x20 :: s) w -> exists w', w = 0x20 :: w' /\ dq brk true s w'.
Proof.
  intros D. inversion D; subst; [discriminate|contradiction|eauto].
Qed.
Lemma must_escape_false g c : scalar_value c -> must_escape g c = false -> is_space c = false -> is_blankz c = false /\ c <> 0x22 /\ c <> 0x5C.
Proof.
  intros S H N. unfold must_escape in H. repeat (apply orb_false_iff in H as [H ?]). apply negb_false_iff in H.
  repeat match goal with H : (_ =? _) = false |- _ => apply N.eqb_neq in H end. split; [|auto].
  unfold is_blankz, is_blank, is_breakz. rewrite N, H2. unfold is_tab, is_z. cbn [orb].
  destruct (N.eqb_spec c 9) as [->|]; [discriminate H|]. destruct (N.eqb_spec c 0) as [->|]; [discriminate H|]. reflexivity.
Qed.
Lemma must_escape_space g : must_escape g 0x20 = false.
Proof. unfold must_escape. change (is_ascii 0x20) with true. cbn [negb]. rewrite andb_false_r. reflexivity. Qed.
Lemma double_text g i allow : (1 <= i)%Z -> forall s first (spaces : bool) p, Forall scalar_value s ->
  p_indention p = false \/ (if spaces then i <= p_column p else i < p_column p)%Z ->
  exists w, chars (double_loop g i allow first spaces s p) = chars p ++ w /\ dq (break_chars g) spaces s w.
Proof.
  intros Hi s. induction s as [|c r IH]; intros first spaces p F H.
  - exists []. split; [rewrite app_nil_r; reflexivity|constructor].
  - inversion F as [|? ? S F']; subst. cbn [double_loop]. destruct (must_escape g c) eqn:M.
    { destruct (IH false false (pputs (0x5C :: escape_code c) p) F') as (w & E & D).
      - destruct (pputs_state (0x5C :: escape_code c) p) as (E1 & E2 & E3 & _). rewrite E1, E3. cbn [length]. destruct H as [H|H]; [left; exact H|]. right. destruct spaces; lia.
      - exists (0x5C :: escape_code c ++ w). rewrite E, chars_puts, <- app_assoc. split; [reflexivity|]. apply dq_esc; [exact S|intros ->; rewrite must_escape_space in M; discriminate|exact D]. }
    destruct (is_space c) eqn:Sp.
    + apply N.eqb_eq in Sp. subst c. destruct (allow && negb spaces && (p_column p >? g_width g)%Z && negb first && negb (nlen r =? 0)) eqn:Fo.
      * apply andb_true_iff in Fo as [Fo R]. apply andb_true_iff in Fo as [Fo _]. apply andb_true_iff in Fo as [Fo _]. apply andb_true_iff in Fo as [_ Sf].
        apply negb_true_iff in Sf. subst spaces.
        destruct (indent_break g i p ltac:(lia) H) as (E1 & E2 & E3 & E4).
        destruct (is_space (next r)) eqn:Nx.
        -- destruct r as [|d r']; [discriminate|]. cbn [next nth] in Nx. apply N.eqb_eq in Nx. subst d.
           destruct (IH false true (pput 0x5C (write_indent g i p)) F') as (w & E & D).
           ++ right. cbn [pput pop_ p_column]. rewrite E2. lia.
           ++ destruct (dq_space_inv _ _ _ D) as (w' & -> & D'). exists (break_chars g ++ repeat 0x20 (Z.to_nat i) ++ 0x5C :: 0x20 :: w'). split.
              ** rewrite E, chars_put, E1. rewrite <- !app_assoc. reflexivity.
              ** apply dq_fold2; [lia|exact D'].
        -- destruct (IH false true (write_indent g i p) F') as (w & E & D); [right; rewrite E2; lia|].
           exists (break_chars g ++ repeat 0x20 (Z.to_nat i) ++ w). split; [rewrite E, E1, <- !app_assoc; reflexivity|].
           apply dq_fold; [lia|apply N.eqb_neq; exact Nx|exact D].
      * destruct (IH false true (pput 0x20 p) F') as (w & E & D).
        -- cbn [pput pop_ p_column p_indention]. destruct H as [H|H]; [left; exact H|]. right. destruct spaces; lia.
        -- exists (0x20 :: w). rewrite E, chars_put, <- app_assoc. split; [reflexivity|]. apply dq_space. exact D.
    + destruct (IH false false (pput c p) F') as (w & E & D).
      * cbn [pput pop_ p_column p_indention]. destruct H as [H|H]; [left; exact H|]. right. destruct spaces; lia.
      * destruct (must_escape_false g c S M Sp) as (M1 & M2 & M3). exists (c :: w). rewrite E, chars_put, <- app_assoc. split; [reflexivity|]. apply dq_char; assumption.
Qed.

(* the quoted text of a scalar, as written *)
Theorem write_double_text g i s allow p : (1 <= i)%Z -> Forall scalar_value s ->
  exists sp w, (sp = [] \/ sp = [0x20]) /\ chars (write_double g i s allow p) = chars p ++ sp ++ 0x22 :: w ++ [0x22] /\ dq (break_chars g) false s w.
Proof.
  intros Hi F. unfold write_double. destruct (indicator_text [0x22] true false false p) as (sp & E1 & Es & E2 & E3 & E4).
  destruct (double_text g i allow Hi s true false (write_indicator [0x22] true false false p) F) as (w & E & D).
  { left. rewrite E4, andb_false_r. reflexivity. }
  exists sp, w. split; [rewrite Es; destruct (true && _); auto|]. split; [|exact D].
  rewrite chars_white. destruct (indicator_text [0x22] false false false (double_loop g i allow true false s (write_indicator [0x22] true false false p))) as (sp' & E5 & Es' & _).
  cbn [andb] in Es'. subst sp'. rewrite E5, E, E1. cbn [app]. rewrite <- !app_assoc. reflexivity.
Qed.
(* how the scanner reads it, everything being in the buffer *)
Lemma double_scanned g s w m t : g_break g <> AnyBreak -> dq (break_chars g) false s w ->
  exists e, scan_flow_scalar false (fc (0x22 :: w ++ 0x22 :: t) m) = COk (mkToken (TScalar (utf8 s) DoubleQuoted) m e false) (fc t e).
Proof.
  intros B D. apply (quoted_scalar false m); [reflexivity| |].
  - inversion D; subst; cbn [nth app]; try discriminate.
    + intros ->. discriminate.
    + pose proof (break_chars_head g ((repeat 0x20 n ++ w0) ++ 0x22 :: t) B) as X. rewrite <- app_assoc. intros E. rewrite E in X. discriminate.
    + pose proof (break_chars_head g ((repeat 0x20 n ++ 0x5C :: 0x20 :: w0) ++ 0x22 :: t) B) as X. rewrite <- app_assoc. intros E. rewrite E in X. discriminate.
  - apply (dq_read g m B false s w D t); [cbn; lia|apply Nat.le_refl].
Qed.

(* the scanner's result does not depend on what is in the buffer *)
Lemma scalar_any_buffer (single : bool) c q x t tok : c_bad c = false -> (1 <= c_unread c <= S (length (c_text c)))%nat -> c_text c = q :: x -> q <> 0 -> is_break q = false ->
  (exists e, scan_flow_scalar single (fc (q :: x) (c_mark c)) = COk (tok e) (fc t e)) ->
  exists e c', scan_flow_scalar single c = COk (tok e) c' /\ c_text c' = t /\ c_mark c' = e.
Proof.
  intros Bd [U1 U2] T Q1 Q2 [e E]. pose proof (free_scan_flow_scalar single c (conj Bd U2)) as K. rewrite fc_full, T, E in K.
  assert (W : wp (scan_flow_scalar single) c (fun _ _ => True) (epos (q :: x) (c_mark c) (Some (c_mark c)))).
  { apply (p_scan_flow_scalar single (q :: x) (c_mark c) c); [|exact Q1|exact Q2|auto]. split; [exact T|]. split; [reflexivity|]. lia. }
  unfold wp in W. destruct (scan_flow_scalar single c) as [tk c'|er| |]; try contradiction; try discriminate.
  destruct K as [K _]. injection K as <- H2 _ H3. exists e, c'. auto.
Qed.

Theorem double_round_trip g i s allow p : (1 <= i)%Z -> g_break g <> AnyBreak -> Forall scalar_value s ->
  exists sp w, (sp = [] \/ sp = [0x20]) /\ written (write_double g i s allow p) = written p ++ sp ++ w /\
    forall rest, scans_as (scan_flow_scalar false) w s DoubleQuoted rest.
Proof.
  intros Hi B F. destruct (write_double_text g i s allow p Hi F) as (sp & w & Hs & E & D).
  exists sp, (0x22 :: w ++ [0x22]). split; [exact Hs|]. split; [exact E|]. intros rest c (T & Bd & U).
  change ((0x22 :: w ++ [0x22]) ++ rest) with (0x22 :: (w ++ [0x22]) ++ rest) in T. rewrite <- app_assoc in T. cbn [app] in T.
  destruct (double_scanned g s w (c_mark c) rest B D) as (e & X).
  destruct (scalar_any_buffer false c 0x22 (w ++ 0x22 :: rest) rest (fun e => mkToken (TScalar (utf8 s) DoubleQuoted) (c_mark c) e false) Bd) as (e' & c' & Y & T' & M);
    [rewrite T; cbn [app length] in *; rewrite <- app_assoc in U; exact U|exact T|discriminate|reflexivity|exists e; exact X|].
  exists c'. rewrite M. auto.
Qed.
