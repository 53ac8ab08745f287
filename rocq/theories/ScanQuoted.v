(* The scanners of quoted and plain scalars, and the choice of a token. *)
From Verif Require Import Base ReaderModel Utf8Spec CharSpec Types CursorModel ScanModel ScannerModel CursorProofs ScanProofs.

Section Q.
Variables (t0 : list N) (m0 : mark).
Notation pos := (pos t0 m0).

(* CHECK_AT at offsets 1, 2, 3 behind known characters *)
Lemma p_check1 st p n x r m c (Q : bool -> cur -> Prop) :
  pos n (x :: r) m c -> (1 < n)%nat -> is_ascii x = true -> Q (p (nth 0 r 0)) c -> wp (check 1 p) c Q (epos t0 m0 st).
Proof.
  intros H K A HQ. eapply p_check; [exact H|exact K|cbn [length]; lia| |intros _; exact HQ]. cbn [firstn forallb]. rewrite A. reflexivity.
Qed.

Definition is_triple (k : N) (t : list N) : bool :=
  match t with x :: y :: z :: _ => (x =? k) && (y =? k) && (z =? k) | _ => false end.
Lemma p_triple st k n t m c (Q : bool -> cur -> Prop) :
  pos n t m c -> (3 <= n)%nat -> 0 < k -> is_ascii k = true -> Q (is_triple k t) c -> wp (triple k) c Q (epos t0 m0 st).
Proof.
  intros H K K0 A HQ. unfold triple. s1. eapply p_check0; [exact H|lia|]. intros _. unfold eqc at 1.
  destruct t as [|x r]; cbn [nth].
  { cbn [is_triple] in HQ. replace (0 =? k) with false by lia. exact HQ. }
  destruct (N.eqb_spec x k) as [->|X].
  2:{ replace (is_triple k (x :: r)) with false in HQ; [exact HQ|].
      destruct r as [|y [|z r]]; auto. cbn. rewrite (proj2 (N.eqb_neq x k) X). reflexivity. }
  s1. eapply p_check1; [exact H|lia|exact A|]. unfold eqc at 1.
  destruct r as [|y r]; cbn [nth].
  { cbn [is_triple] in HQ. replace (0 =? k) with false by lia. exact HQ. }
  destruct (N.eqb_spec y k) as [->|Y].
  2:{ replace (is_triple k (k :: y :: r)) with false in HQ; [exact HQ|].
      destruct r as [|z r]; auto. cbn. rewrite (proj2 (N.eqb_neq y k) Y), andb_false_r. reflexivity. }
  eapply p_check; [exact H|lia|cbn [length]; lia|cbn; rewrite A; reflexivity|]. intros _. cbn [nth]. unfold eqc.
  destruct r as [|z r]; cbn [nth is_triple] in *; [replace (0 =? k) with false by lia; exact HQ|].
  rewrite !N.eqb_refl in HQ. exact HQ.
Qed.
Definition is_indicator (k : N) (t : list N) : bool := is_triple k t && is_blankz (nth 3 t 0).
Lemma triple_ascii k t : is_triple k t = true -> is_ascii k = true -> forallb is_ascii (firstn 3 t) = true /\ (3 <= length t)%nat.
Proof.
  destruct t as [|x [|y [|z r]]]; try discriminate. cbn [is_triple firstn forallb length]. intros H A.
  apply andb_true_iff in H as [H H3]. apply andb_true_iff in H as [H1 H2]. apply N.eqb_eq in H1, H2, H3. subst. rewrite A. split; [reflexivity|lia].
Qed.
Lemma p_indicator st k n t m c (Q : bool -> cur -> Prop) :
  pos n t m c -> (4 <= n)%nat -> 0 < k -> is_ascii k = true -> Q (is_indicator k t) c ->
  wp (andc (triple k) (check 3 is_blankz)) c Q (epos t0 m0 st).
Proof.
  intros H K K0 A HQ. s1. eapply p_triple; [exact H|lia|exact K0|exact A|]. unfold is_indicator in HQ.
  destruct (is_triple k t) eqn:T; [|exact HQ]. destruct (triple_ascii _ _ T A) as [A3 L3].
  eapply p_check; [exact H|lia|exact L3|exact A3|]. intros _. exact HQ.
Qed.
Definition at_document_indicator (t : list N) (m : mark) : bool :=
  (m_column m =? 0) && (is_indicator 0x2D t || is_indicator 0x2E t).
Lemma p_document_indicator st n t m c (Q : bool -> cur -> Prop) :
  pos n t m c -> (4 <= n)%nat -> Q (at_document_indicator t m) c -> wp document_indicator c Q (epos t0 m0 st).
Proof.
  intros H K HQ. unfold document_indicator. s1. s1. s1. s1. unfold at_document_indicator, is_indicator in HQ.
  destruct (m_column m =? 0); [|exact HQ]. cbn [andb] in HQ. s1. s1.
  eapply p_triple; [exact H|lia|lia|reflexivity|].
  destruct (is_triple 0x2D t) eqn:T.
  { destruct (triple_ascii _ _ T eq_refl) as [A3 L3].
    eapply p_check; [exact H|lia|exact L3|exact A3|]. intros _.
    replace (is_triple 0x2E t) with false in HQ; [cbn [andb orb] in HQ; rewrite orb_false_r in HQ; exact HQ|].
    clear -T. destruct t as [|x [|y [|z r]]]; try discriminate. cbn in *. lia. }
  eapply p_triple; [exact H|lia|lia|reflexivity|].
  destruct (is_triple 0x2E t) eqn:T'; [|exact HQ].
  destruct (triple_ascii _ _ T' eq_refl) as [A3 L3].
  eapply p_check; [exact H|lia|exact L3|exact A3|]. intros _. exact HQ.
Qed.

Lemma p_scan_hex start k : forall j v n t m c (Q : N -> cur -> Prop),
  pos n t m c -> (j + k <= n)%nat -> (j <= length t)%nat -> forallb is_hex (firstn j t) = true ->
  (forall v', (j + k <= length t)%nat -> forallb is_hex (firstn (j + k) t) = true -> Q v' c) ->
  wp (scan_hex k j start v) c Q (epos t0 m0 (Some start)).
Proof.
  induction k as [|k IH]; intros j v n t m c Q H K L F HQ; cbn [scan_hex].
  - apply wp_ret. rewrite Nat.add_0_r in HQ. auto.
  - s1. eapply p_peek; [exact H|lia|exact L| |].
    { rewrite forallb_forall in *. intros y Y. specialize (F y Y). cls. }
    intros _. destruct (is_hex (nth j t 0)) eqn:X; [|ss].
    assert (J : (j < length t)%nat) by (apply nth_lt; intros E0; rewrite E0 in X; discriminate).
    assert (F' : firstn (S j) t = firstn j t ++ [nth j t 0]).
    { clear -J. revert t J. induction j as [|j IH]; intros [|y t] J; cbn [length] in *; try lia; [reflexivity|].
      cbn [firstn nth app]. f_equal. apply IH. lia. }
    eapply IH; [exact H|lia|lia| |].
    + rewrite F', forallb_app, F. cbn [forallb]. rewrite X. reflexivity.
    + intros v'. replace (S j + k)%nat with (j + S k)%nat by lia. apply HQ.
Qed.
Lemma p_skip_n st k : forall n t m c (Q : unit -> cur -> Prop),
  pos n t m c -> (k <= n)%nat -> (k <= length t)%nat ->
  (forall x, In x (firstn k t) -> x <> 0 /\ is_break x = false) ->
  (forall t' m' c', pos (n - k) t' m' c' -> adv t m t' m' -> t' = skipn k t -> m' = next_column (N.of_nat k) m -> Q tt c') ->
  wp (skip_n k) c Q (epos t0 m0 st).
Proof.
  induction k as [|k IH]; intros n t m c Q H K L F HQ; cbn [skip_n].
  - apply wp_ret. eapply HQ; [rewrite Nat.sub_0_r; exact H|constructor|reflexivity|].
    destruct m; unfold next_column; cbn. f_equal; lia.
  - destruct t as [|x r]; cbn [length] in L; [lia|]. destruct n as [|n]; [lia|].
    destruct (F x) as [Z B]; [left; reflexivity|].
    s1. eapply p_skip; [exact H|exact Z|exact B|]. intros ? ? c1 [= <- <-] H1.
    eapply IH; [exact H1|lia|lia| |].
    + intros y Y. apply F. right. exact Y.
    + intros t' m' c' H' A' T' M'. eapply HQ; [exact H'|apply adv_char; [exact B|exact A']|exact T'|].
      subst m'. unfold next_column. cbn. f_equal; lia.
Qed.

Lemma escape_char x e : escape x = Some e -> x <> 0 /\ is_break x = false /\ is_ascii x = true.
Proof.
  unfold escape. repeat match goal with |- context [if ?b then _ else _] => destruct b eqn:?; [split; [lia|split; cls]|] end. discriminate.
Qed.
Lemma escape_bytes x bs : escape x = Some (inl bs) -> (length bs <= room)%nat.
Proof.
  unfold escape. repeat match goal with |- context [if ?b then _ else _] => destruct b; [intros [= <-] || discriminate; cbn; unfold room; lia|] end.
  repeat match goal with |- context [if ?b then _ else _] => destruct b; [discriminate|] end. discriminate.
Qed.
Lemma code_bytes_room v : (length (code_bytes v) <= room)%nat.
Proof. unfold code_bytes, room. repeat match goal with |- context [if ?b then _ else _] => destruct b end; cbn; lia. Qed.

Lemma p_scan_escape start s n t m c (Q : list N -> cur -> Prop) :
  pos n t m c -> (2 <= n)%nat -> nth 0 t 0 = 0x5C ->
  (forall s t' m' c', pos 0 t' m' c' -> adv t m t' m' -> (length t' < length t)%nat -> Q s c') ->
  wp (scan_escape start s) c Q (epos t0 m0 (Some start)).
Proof.
  intros H K X HQ. unfold scan_escape. s1.
  destruct t as [|x r]; [discriminate|]. cbn [nth] in X. subst x.
  eapply p_peek; [exact H|lia|cbn [length]; lia|reflexivity|]. intros _. cbn [nth].
  destruct (escape (nth 0 r 0)) as [[bs|k]|] eqn:X; sx.
  - destruct (escape_char _ _ X) as (Z & B & _).
    apply wp_put; [eapply escape_bytes; eauto|]. sx. destruct n as [|[|n]]; try lia.
    eapply p_skip; [exact H|cbn; lia|reflexivity|]. intros ? ? c1 [= <- <-] H1. sx.
    eapply p_skip; [exact H1|exact Z|exact B|]. intros y q c2 -> H2. sx.
    eapply HQ; [eapply pos_le; [exact H2|lia]| |cbn [length]; lia].
    apply adv_char; [reflexivity|]. apply adv_one. exact B.
  - destruct (escape_char _ _ X) as (Z & B & _). destruct n as [|[|n]]; try lia.
    eapply p_skip; [exact H|cbn; lia|reflexivity|]. intros ? ? c1 [= <- <-] H1. sx.
    eapply p_skip; [exact H1|exact Z|exact B|]. intros y q c2 -> H2. clear H H1. sx.
    eapply p_scan_hex; [exact H2|lia|lia|reflexivity|]. cbn [Nat.add]. intros v L F. sx.
    destruct (((0xD800 <=? v) && (v <=? 0xDFFF)) || (0x10FFFF <? v)); sx.
    apply wp_put; [apply code_bytes_room|]. sx.
    eapply p_skip_n; [exact H2|lia|exact L| |].
    { intros z Iz. rewrite forallb_forall in F. specialize (F z Iz). split; cls. }
    intros t4 m4 c4 H4 A4 T4 M4. sx. eapply HQ; [eapply pos_le; [exact H4|lia]| |].
    + apply adv_char; [reflexivity|]. apply adv_char; [exact B|exact A4].
    + apply adv_len in A4. cbn [length]. lia.
Qed.

Lemma p_scan_quoted_word (single : bool) start s n t m c (Q : list N * bool -> cur -> Prop) :
  pos n t m c -> (2 <= n)%nat ->
  (forall s (lb : bool) t' m' c', pos 0 t' m' c' -> adv t m t' m' ->
     (if lb then (length t' < length t)%nat
      else is_blankz (nth 0 t' 0) = true \/ nth 0 t' 0 = if single then 0x27 else 0x22) -> Q (s, lb) c') ->
  wp (scan_quoted_word single start s) c Q (epos t0 m0 (Some start)).
Proof.
  intros H K HQ. unfold scan_quoted_word. cbv zeta.
  apply (p_loop t0 m0 (Some start) (fun (a : list N) t' m' => adv t m t' m') 2%nat _ _ t m).
  { eapply pos_le; [exact H|lia]. }
  { constructor. }
  clear H c. intros s1 t1 m1 c H A. assert (L1 := adv_len _ _ _ _ A). sx.
  destruct (is_blankz (nth 0 t1 0)) eqn:Bz.
  { sx. eapply (HQ _ false); [eapply pos_le; [exact H|lia]|exact A|left; exact Bz]. }
  assert (Z : nth 0 t1 0 <> 0) by cls. assert (B : is_break (nth 0 t1 0) = false) by cls.
  destruct (nth0_cons _ Z) as [x [r ->]]. cbn [nth] in *.
  s1.
  eapply (wp_mono _ _ (fun b c' => c' = c /\ b = (single && (x =? 0x27) && (nth 0 r 0 =? 0x27)))).
  { apply wp_andc, wp_ret. destruct single; cbn [andb]; [|split; reflexivity]. s1. eapply p_check0; [exact H|lia|]. intros _. cbn [nth]. unfold eqc at 1.
    destruct (N.eqb_spec x 0x27) as [->|]; [|split; reflexivity].
    eapply p_check1; [exact H|lia|reflexivity|]. split; reflexivity. }
  2:{ intros ? W. exact W. }
  intros pr c1 [-> ->]. destruct (single && (x =? 0x27) && (nth 0 r 0 =? 0x27)) eqn:Pr.
  { sx. apply wp_put; [cbn; unfold room; lia|]. sx.
    eapply p_skip; [exact H|exact Z|exact B|]. intros ? ? c1 [= <- <-] H1. sx.
    eapply p_skip; [exact H1|cls|cls|]. intros y q c2 -> H2. clear H H1. sx.
    exists q, (next_column 1 (next_column 1 m1)). split; [exact H2|]. split; [|cbn [length]; lia].
    eapply adv_trans; [exact A|]. apply adv_char; [exact B|]. apply adv_one. cbn [nth] in Pr. destruct single; [|discriminate]. cls. }
  sx. cbn [nth]. unfold eqc at 1. destruct (N.eqb_spec x (if single then 0x27 else 0x22)) as [Eq|Nq].
  { sx. eapply (HQ _ false); [eapply pos_le; [exact H|lia]|exact A|right; exact Eq]. }
  s1.
  eapply (wp_mono _ _ (fun b c' => c' = c /\ b = (negb single && (x =? 0x5C) && is_break (nth 0 r 0)))).
  { apply wp_andc, wp_ret. destruct single; cbn [andb negb]; [split; reflexivity|]. s1. eapply p_check0; [exact H|lia|]. intros _. cbn [nth]. unfold eqc at 1.
    destruct (N.eqb_spec x 0x5C) as [->|]; [|split; reflexivity].
    eapply p_check1; [exact H|lia|reflexivity|]. split; reflexivity. }
  2:{ intros ? W. exact W. }
  intros pr c1 [-> ->]. destruct (negb single && (x =? 0x5C) && is_break (nth 0 r 0)) eqn:Eb.
  { sx. eapply p_skip; [exact H|exact Z|exact B|]. intros ? ? c1 [= <- <-] H1. sx.
    eapply p_skip_line; [exact H1|lia|destruct (is_break (nth 0 r 0)); [reflexivity|rewrite andb_false_r in Eb; discriminate]|].
    intros t2 m2 c2 S2 H2. sx. eapply (HQ _ true); [eapply pos_le; [exact H2|lia]| |].
    - eapply adv_trans; [exact A|]. apply adv_char; [exact B|]. apply line_step_adv. exact S2.
    - apply line_step_len in S2. cbn [length] in L1. lia. }
  sx. cbn [nth]. unfold eqc at 1. destruct (negb single && (x =? 0x5C)) eqn:Es.
  { sx. eapply p_scan_escape; [exact H|lia|cbn [nth]; lia|]. intros s2 t2 m2 c2 H2 A2 L2. sx.
    exists t2, m2. split; [exact H2|]. split; [eapply adv_trans; eauto|exact L2]. }
  sx. eapply p_read; [exact H|exact Z|exact B|]. intros ? ? c1 [= <- <-] H1. clear H. sx.
  exists r, (next_column 1 m1). split; [eapply pos_le; [exact H1|lia]|]. split; [|cbn [length]; lia].
  eapply adv_trans; [exact A|]. apply adv_one. exact B.
Qed.

Lemma p_scan_quoted_blanks st b0 n t m c (Q : blanks -> cur -> Prop) :
  pos n t m c -> (1 <= n)%nat ->
  (forall b t' m' c', pos 1 t' m' c' -> adv t m t' m' ->
     is_blank (nth 0 t' 0) = false -> is_break (nth 0 t' 0) = false -> Q b c') ->
  wp (scan_quoted_blanks b0) c Q (epos t0 m0 st).
Proof.
  intros H K HQ. unfold scan_quoted_blanks.
  apply (p_loop t0 m0 st (fun (a : blanks) t' m' => adv t m t' m') 1%nat _ _ t m).
  { eapply pos_le; [exact H|lia]. }
  { constructor. }
  clear H c. intros [[[lb ws] ld] tr] t1 m1 c H A. sx.
  destruct (is_blank (nth 0 t1 0)) eqn:Bl.
  { assert (A' : forall x r, t1 = x :: r -> adv t m r (next_column 1 m1)).
    { intros x r ->. eapply adv_trans; [exact A|]. apply adv_one. cbn [nth] in Bl. cls. }
    destruct lb; sx.
    - eapply p_skip; [exact H|cls|cls|]. intros x r c1 T1 H1. clear H. sx.
      exists r, (next_column 1 m1). split; [exact H1|]. split; [eauto|]. subst t1. cbn [length]. lia.
    - eapply p_read; [exact H|cls|cls|]. intros x r c1 T1 H1. clear H. sx.
      exists r, (next_column 1 m1). split; [exact H1|]. split; [eauto|]. subst t1. cbn [length]. lia. }
  destruct (is_break (nth 0 t1 0)) eqn:Bk; sx.
  - destruct lb; sx; (eapply p_read_line; [exact H|lia|exact Bk|]); intros t2 m2 c2 S2 H2; clear H; sx;
      (exists t2, m2; split; [eapply pos_le; [exact H2|lia]|]; split; [eapply adv_trans; [exact A|apply line_step_adv; exact S2]|eapply line_step_len; eauto]).
  - eapply HQ; eauto.
Qed.

Lemma p_fold_breaks s ld tr c (Q : list N -> cur -> Prop) E : (forall s', Q s' c) -> wp (fold_breaks s ld tr) c Q E.
Proof.
  intros HQ. unfold fold_breaks. destruct (starts_lf ld); [destruct (nonempty tr)|]; try (apply wp_ret; auto).
Qed.
End Q.

Lemma p_scan_flow_scalar (single : bool) t m c (Q : token -> cur -> Prop) :
  hold 1 t m c -> nth 0 t 0 <> 0 -> is_break (nth 0 t 0) = false ->
  (forall tk t' m' c', pos t m 0 t' m' c' -> (length t' < length t)%nat -> token_at t m tk t' ->
     match t_tok tk with TScalar _ y => y = (if single then SingleQuoted else DoubleQuoted) | _ => False end -> Q tk c') ->
  wp (scan_flow_scalar single) c Q (epos t m (Some m)).
Proof.
  intros H0 Z B HQ. pose proof (pos_start _ _ _ _ H0) as H. clear H0. unfold scan_flow_scalar. sx.
  eapply p_skip; [exact H|exact Z|exact B|]. clear H. intros x r c1 -> H1. cbn [nth] in *. sx.
  apply (p_loop (x :: r) m (Some m) (fun (a : list N) t' m' => (length t' < S (length r))%nat) O _ _ r (next_column 1 m)).
  { eapply pos_le; [exact H1|lia]. }
  { lia. }
  clear H1 c1. intros s t1 m1 c1 H1 L1. sx.
  eapply p_document_indicator; [exact H1|lia|].
  destruct (at_document_indicator t1 m1); sx.
  destruct (is_z (nth 0 t1 0)) eqn:Z1; sx.
  eapply p_scan_quoted_word; [exact H1|lia|]. clear H1. intros s2 lb t2 m2 c2 H2 A2 W2. assert (L2 := adv_len _ _ _ _ A2). sx.
  unfold eqc at 1. destruct (N.eqb_spec (nth 0 t2 0) (if single then 0x27 else 0x22)) as [Eq|Nq].
  { sx. eapply p_skip; [exact H2|destruct single; lia|rewrite Eq; destruct single; reflexivity|]. intros y q c3 -> H3. clear H2. sx.
    eapply HQ; [exact H3|cbn [length] in *; lia| |reflexivity]. repeat split. exists q. split; [apply H3|lia]. }
  sx. eapply p_scan_quoted_blanks; [exact H2|lia|]. clear H2. intros [[[lb3 ws] ld] tr] t3 m3 c3 H3 A3 N3 N3'. assert (L3 := adv_len _ _ _ _ A3). sx.
  eapply (wp_mono _ _ (fun (_ : list N) c' => c' = c3)); [|intros s4 c4 ->|intros ? W; exact W].
  { destruct lb3; [apply p_fold_breaks; reflexivity|reflexivity]. }
  sx. exists t3, m3. split; [eapply pos_le; [exact H3|lia]|].
  assert (length t3 < length t1)%nat; [|lia].
  destruct lb; [lia|]. destruct W2 as [W2|W2]; [|congruence].
  (* the word has stopped at a blank, a break or the end *)
  destruct (Nat.eq_dec (length t3) (length t1)) as [Eq|]; [|lia]. exfalso.
  assert (forall ta ma tb mb, adv ta ma tb mb -> length tb = length ta -> ta = tb) as SameLen.
  { clear. intros ta ma tb mb A E. destruct A; auto; apply adv_len in A; cbn [length] in E; lia. }
  assert (t1 = t2) by (eapply SameLen; [exact A2|lia]). assert (t2 = t3) by (eapply SameLen; [exact A3|lia]). subst t2 t3.
  cls.
Qed.

Section P2.
Variables (t0 : list N) (m0 : mark).
Notation pos := (pos t0 m0).

(* 3453-3476: the plain scalar stops before this character *)
Definition plain_stop (flow : bool) (t : list N) : bool :=
  is_blankz (nth 0 t 0) || ((nth 0 t 0 =? 0x3A) && is_blankz (nth 1 t 0)) || (flow && flow_end (nth 0 t 0)).

Lemma p_scan_plain_word flow start s0 b0 e0 n t m c (Q : plain_state -> cur -> Prop) :
  pos n t m c -> (2 <= n)%nat -> between t0 m0 e0 t ->
  (forall s b e t' m' c', pos 1 t' m' c' -> adv t m t' m' -> between t0 m0 e t' ->
     (plain_stop flow t = false -> (length t' < length t)%nat) -> Q (s, b, e) c') ->
  wp (scan_plain_word flow start (s0, b0, e0)) c Q (epos t0 m0 (Some start)).
Proof.
  intros H K B0 HQ. unfold scan_plain_word.
  apply (p_loop t0 m0 (Some start) (fun (a : plain_state) t' m' => adv t m t' m' /\ between t0 m0 (snd a) t'
     /\ (t' = t \/ (length t' < length t)%nat)) 2%nat _ _ t m).
  { eapply pos_le; [exact H|lia]. }
  { split; [constructor|]. auto. }
  clear H c. intros [[s [[[lb ws] ld] tr]] e] t1 m1 c H (A & Be & P). cbn [snd] in Be. assert (L1 := adv_len _ _ _ _ A). sx.
  assert (Leave : plain_stop flow t1 = true -> Q (s, (lb, ws, ld, tr), e) c).
  { intros St. eapply HQ; [eapply pos_le; [exact H|lia]|exact A|exact Be|]. intros. destruct P as [->|]; [congruence|assumption]. }
  unfold plain_stop in Leave.
  destruct (is_blankz (nth 0 t1 0)) eqn:Bz; [sx; auto|].
  assert (Z : nth 0 t1 0 <> 0) by cls. assert (B : is_break (nth 0 t1 0) = false) by cls.
  destruct (nth0_cons _ Z) as [x [r ->]]. cbn [nth] in *. cbn [orb] in Leave.
  s1.
  eapply (wp_mono _ _ (fun b c' => c' = c)).
  { apply wp_andc, wp_ret. destruct flow; [|reflexivity]. s1. eapply p_check0; [exact H|lia|]. intros _. cbn [nth]. unfold eqc at 1.
    destruct (N.eqb_spec x 0x3A) as [->|]; [|reflexivity]. eapply p_check1; [exact H|lia|reflexivity|]. reflexivity. }
  2:{ intros ? W. exact W. }
  intros col ? ->. destruct col; [sx|]. s1.
  eapply (wp_mono _ _ (fun b c' => c' = c /\ b = ((x =? 0x3A) && is_blankz (nth 0 r 0)) || (flow && flow_end x))).
  { s1. s1. eapply p_check0; [exact H|lia|]. intros _. cbn [nth]. unfold eqc at 1.
    destruct (N.eqb_spec x 0x3A) as [->|].
    - eapply p_check1; [exact H|lia|reflexivity|]. cbn [andb]. destruct (is_blankz (nth 0 r 0)); [split; reflexivity|].
      eapply p_andc_ret; [exact H|lia|]. split; reflexivity.
    - cbn [andb orb]. eapply p_andc_ret; [exact H|lia|]. split; reflexivity. }
  2:{ intros ? W. exact W. }
  intros stop c1 [-> Es]. destruct stop; [sx; auto|]. sx.
  eapply (wp_mono _ _ (fun (_ : list N) c' => c' = c)); [|intros s4 c4 ->|intros ? W; exact W].
  { destruct lb; [apply p_fold_breaks; reflexivity|reflexivity]. }
  sx. eapply p_read; [exact H|exact Z|exact B|]. intros ? ? c1 [= <- <-] H1. clear H Leave. sx.
  assert (A' : adv t m r (next_column 1 m1)) by (eapply adv_trans; [exact A|apply adv_one; exact B]).
  exists r, (next_column 1 m1). split; [eapply pos_le; [exact H1|lia]|]. split; [|cbn [length]; lia].
  split; [exact A'|]. split; [|right; cbn [length] in L1; lia]. apply between_here. apply H1.
Qed.

Lemma p_scan_plain_blanks indent start b0 n t m c (Q : blanks -> cur -> Prop) :
  pos n t m c -> (1 <= n)%nat ->
  (forall b t' m' c', pos 1 t' m' c' -> adv t m t' m' ->
     is_blank (nth 0 t' 0) = false -> is_break (nth 0 t' 0) = false -> Q b c') ->
  wp (scan_plain_blanks indent start b0) c Q (epos t0 m0 (Some start)).
Proof.
  intros H K HQ. unfold scan_plain_blanks.
  apply (p_loop t0 m0 (Some start) (fun (a : blanks) t' m' => adv t m t' m') 1%nat _ _ t m).
  { eapply pos_le; [exact H|lia]. }
  { constructor. }
  clear H c. intros [[[lb ws] ld] tr] t1 m1 c H A. sx.
  destruct (is_blank (nth 0 t1 0)) eqn:Bl; sx.
  { assert (A' : forall x r, t1 = x :: r -> adv t m r (next_column 1 m1)).
    { intros x r ->. eapply adv_trans; [exact A|]. apply adv_one. cbn [nth] in Bl. cls. }
    destruct (lb && _ && _); sx.
    destruct lb; sx.
    - eapply p_skip; [exact H|cls|cls|]. intros x r c1 T1 H1. clear H. sx.
      exists r, (next_column 1 m1). split; [exact H1|]. split; [eauto|]. subst t1. cbn [length]. lia.
    - eapply p_read; [exact H|cls|cls|]. intros x r c1 T1 H1. clear H. sx.
      exists r, (next_column 1 m1). split; [exact H1|]. split; [eauto|]. subst t1. cbn [length]. lia. }
  destruct (is_break (nth 0 t1 0)) eqn:Bk; sx.
  - destruct lb; sx; (eapply p_read_line; [exact H|lia|exact Bk|]); intros t2 m2 c2 S2 H2; clear H; sx;
      (exists t2, m2; split; [eapply pos_le; [exact H2|lia]|]; split; [eapply adv_trans; [exact A|apply line_step_adv; exact S2]|eapply line_step_len; eauto]).
  - eapply HQ; eauto.
Qed.
End P2.

Lemma adv_same_len ta ma tb mb : adv ta ma tb mb -> length tb = length ta -> ta = tb.
Proof. intros A E. destruct A; auto; apply adv_len in A; cbn [length] in E; lia. Qed.

Lemma p_scan_plain_scalar flow pindent t m c (Q : token * bool -> cur -> Prop) :
  hold 1 t m c -> plain_stop flow t = false -> nth 0 t 0 <> 0x23 -> at_document_indicator t m = false ->
  (forall tk lb t' m' c', pos t m 0 t' m' c' -> (length t' < length t)%nat -> token_at t m tk t' ->
     match t_tok tk with TScalar _ y => y = Plain | _ => False end -> Q (tk, lb) c') ->
  wp (scan_plain_scalar flow pindent) c Q (epos t m (Some m)).
Proof.
  intros H0 St Hs Di HQ. pose proof (pos_start _ _ _ _ H0) as H. clear H0. unfold scan_plain_scalar. sx.
  apply (p_loop t m (Some m) (fun (a : plain_state) t' m' => between t m (snd a) t' /\ ((t' = t /\ m' = m) \/ (length t' < length t)%nat)) O _ _ t m).
  { eapply pos_le; [exact H|lia]. }
  { split; [apply between_here; constructor|auto]. }
  clear H c. intros [[s b] e] t1 m1 c H [Be P]. cbn [snd] in Be. sx.
  assert (Leave : forall s b e t' m' c', pos t m 0 t' m' c' -> between t m e t' -> (length t' < length t)%nat ->
     wp (let '(s, (lb, _, _, _), e) := (s, b, e) : plain_state in ret (mkToken (TScalar s Plain) m e false, lb)) c' Q (epos t m (Some m))).
  { clear - HQ. intros s [[[lb ws] ld] tr] e t' m' c' H B L. apply wp_ret. eapply HQ; [exact H|exact L| |reflexivity]. repeat split. exact B. }
  eapply p_document_indicator; [exact H|lia|].
  destruct (at_document_indicator t1 m1) eqn:Di1.
  { apply wp_ret. eapply Leave; [eapply pos_le; [exact H|lia]|exact Be|]. destruct P as [[-> ->]|]; [congruence|assumption]. }
  sx. unfold eqc at 1. destruct (N.eqb_spec (nth 0 t1 0) 0x23) as [Hs1|Hs1].
  { apply wp_ret. eapply Leave; [eapply pos_le; [exact H|lia]|exact Be|]. destruct P as [[-> ->]|]; [congruence|assumption]. }
  sx. eapply p_scan_plain_word; [exact H|lia|exact Be|]. clear H. intros s2 b2 e2 t2 m2 c2 H2 A2 B2 P2.
  assert (L2 := adv_len _ _ _ _ A2).
  assert (P2' : (length t2 < length t)%nat) by (destruct P as [[-> ->]|]; [auto|lia]).
  sx. destruct (is_blank (nth 0 t2 0) || is_break (nth 0 t2 0)) eqn:Mo; cbn [negb].
  2:{ apply wp_ret. eapply Leave; [eapply pos_le; [exact H2|lia]|exact B2|exact P2']. }
  sx. eapply p_scan_plain_blanks; [exact H2|lia|]. clear H2. intros b3 t3 m3 c3 H3 A3 N3 N3'. assert (L3 := adv_len _ _ _ _ A3). sx.
  destruct (negb flow && _).
  { apply wp_ret. eapply Leave; [eapply pos_le; [exact H3|lia]|eapply between_le; [exact B2|exact L3]|lia]. }
  sx. exists t3, m3. split; [eapply pos_le; [exact H3|lia]|].
  assert (length t3 <> length t2).
  { intros Eq. assert (t2 = t3) by (eapply adv_same_len; eauto). subst t3. rewrite N3, N3' in Mo. discriminate. }
  split; [|lia]. split; [eapply between_le; [exact B2|exact L3]|right; lia].
Qed.

(* What the choice of a branch guarantees *)
Definition choose_ok (flow : bool) (t : list N) (m : mark) (b : branch) : Prop :=
  let x := nth 0 t 0 in
  match b with
  | BStreamEnd => x = 0
  | BDirective => x = 0x25 /\ m_column m = 0
  | BDocStart => m_column m = 0 /\ is_indicator 0x2D t = true
  | BDocEnd => m_column m = 0 /\ is_indicator 0x2E t = true
  | BFlowSeqStart => x = 0x5B
  | BFlowMapStart => x = 0x7B
  | BFlowSeqEnd => x = 0x5D
  | BFlowMapEnd => x = 0x7D
  | BFlowEntry => x = 0x2C
  | BBlockEntry => x = 0x2D
  | BKey => x = 0x3F
  | BValue => x = 0x3A
  | BAlias => x = 0x2A
  | BAnchor => x = 0x26
  | BTag => x = 0x21
  | BLiteral => x = 0x7C /\ flow = false
  | BFolded => x = 0x3E /\ flow = false
  | BSingle => x = 0x27
  | BDouble => x = 0x22
  | BPlain => plain_stop flow t = false /\ x <> 0x23 /\ at_document_indicator t m = false
  | BError => True
  end.

Lemma p_choose t0 m0 st flow t m c (Q : branch -> cur -> Prop) :
  pos t0 m0 4 t m c ->
  (forall b, choose_ok flow t m b -> Q b c) ->
  wp (choose flow) c Q (epos t0 m0 st).
Proof.
  intros H HQ. unfold choose. sx.
  destruct (is_z (nth 0 t 0)) eqn:Z0; [sx; apply HQ; cbn; cls|].
  destruct ((m_column m =? 0) && (nth 0 t 0 =? 0x25)) eqn:Dr; [sx; apply HQ; cbn; lia|].
  assert (Z : nth 0 t 0 <> 0) by cls. destruct (nth0_cons t Z) as [x [r T]].
  assert (X : nth 0 t 0 = x) by (subst t; reflexivity).
  s1. s1. s1.
  assert (Ind : forall k (Q : bool -> cur -> Prop), 0 < k -> is_ascii k = true -> Q ((m_column m =? 0) && is_indicator k t) c ->
     if m_column m =? 0 then wp (andc (triple k) (check 3 is_blankz)) c Q (epos t0 m0 st) else Q false c).
  { intros k Q' K A HQ'. destruct (m_column m =? 0); [|exact HQ']. eapply p_indicator; [exact H|lia|exact K|exact A|exact HQ']. }
  apply Ind; [lia|reflexivity|]. destruct ((m_column m =? 0) && is_indicator 0x2D t) eqn:D1.
  { s1. apply HQ. cbn. apply andb_true_iff in D1. rewrite N.eqb_eq in D1. exact D1. }
  s1. s1. s1. apply Ind; [lia|reflexivity|]. destruct ((m_column m =? 0) && is_indicator 0x2E t) eqn:D2.
  { s1. apply HQ. cbn. apply andb_true_iff in D2. rewrite N.eqb_eq in D2. exact D2. }
  assert (Di : at_document_indicator t m = false).
  { unfold at_document_indicator. rewrite andb_orb_distrib_r, D1, D2. reflexivity. }
  rewrite X in *. cbv beta iota.
  do 5 (match goal with |- wp (if ?b then _ else _) _ _ _ => destruct b eqn:?; [s1; apply HQ; cbn; lia|] end).
  assert (Look : forall k (f : bool) (Q : bool -> cur -> Prop), is_ascii k = true ->
     (forall b, (b = true -> x = k) -> (b = false -> x = k -> (f || is_blankz (nth 0 r 0)) = false) -> Q b c) ->
     wp (andc (ret (x =? k)) (orc (ret f) (check 1 is_blankz))) c Q (epos t0 m0 st)).
  { intros k f Q' A HQ'. s1. s1. destruct (N.eqb_spec x k) as [->|]; [|apply HQ'; [congruence|contradiction]]. s1. s1.
    destruct f; [apply HQ'; congruence|]. subst t. eapply p_check1; [exact H|lia|exact A|]. apply HQ'; auto. }
  s1.
  eapply (wp_mono _ _ (fun b c' => c' = c /\ b = ((x =? 0x2D) && is_blankz (nth 0 r 0)))).
  { apply wp_andc, wp_ret. destruct (N.eqb_spec x 0x2D) as [Ex|]; [|split; reflexivity]. subst t. eapply p_check1; [exact H|lia|subst x; reflexivity|]. split; reflexivity. }
  2:{ intros ? W. exact W. }
  intros b c1 [-> Eb]. destruct b; [s1; apply HQ; cbn; lia|].
  s1. apply (Look 0x3F); [reflexivity|]. intros [] Bq Bq'; [s1; apply HQ; cbn; rewrite X; auto|].
  s1. apply (Look 0x3A); [reflexivity|]. intros [] Bv Bv'; [s1; apply HQ; cbn; rewrite X; auto|].
  cbv beta iota.
  do 7 (match goal with |- wp (if ?b then _ else _) _ _ _ => destruct b eqn:?; [s1; apply HQ; cbn; try lia; (split; [lia|destruct flow; auto; lia])|] end).
  s1. eapply (wp_mono _ _ (fun b c' => c' = c /\ (b = true -> choose_ok flow t m BPlain))).
  2:{ intros b c1 [-> Hb]. destruct b; s1; apply HQ; [auto|exact I]. }
  2:{ intros ? W. exact W. }
  unfold plain_start. s1. s1. rewrite X.
  assert (Stop : x <> 0x23 -> is_blankz x = false -> (x = 0x3A -> is_blankz (nth 0 r 0) = false) -> (flow = true -> flow_end x = false) -> choose_ok flow t m BPlain).
  { intros S1 S2 S3 S4. cbn [choose_ok]. rewrite X. split; [|split; [exact S1|exact Di]]. unfold plain_stop. rewrite X, S2. subst t. cbn [nth].
    destruct (N.eqb_spec x 0x3A); [rewrite S3 by assumption|]; cbn [orb andb]; (destruct flow; [rewrite S4; auto|auto]). }
  assert (Fe : flow_end x = false) by (unfold flow_end; cbn [existsb]; lia).
  destruct (plain_first x) eqn:Pf.
  { unfold plain_first in Pf. cbn [existsb] in Pf. apply negb_true_iff in Pf. apply orb_false_iff in Pf. split; auto. intros _. apply Stop; auto; try lia; apply Pf. }
  s1. s1. s1. rewrite X. unfold eqc at 1. destruct (N.eqb_spec x 0x2D) as [Ex|].
  { subst t. eapply p_check1; [exact H|lia|subst x; reflexivity|].
    destruct (is_blank (nth 0 r 0)) eqn:Bl; cbn [negb].
    - exfalso. cbn [andb] in Eb. cls.
    - split; auto. intros _. apply Stop; auto; subst x; try lia; reflexivity. }
  s1. s1. destruct flow; cbn [negb]; [split; auto; discriminate|]. s1. s1. rewrite X.
  destruct ((x =? 0x3F) || (x =? 0x3A)) eqn:Qc; [|split; auto; discriminate].
  subst t. eapply p_check1; [exact H|lia|cls|]. split; auto. intros Nb. apply negb_true_iff in Nb. apply Stop; auto; try lia; cls.
Qed.
