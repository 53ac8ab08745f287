(* A plain scalar is read as it is spelled. *)
From Verif Require Import Base ReaderModel Utf8Spec Utf8Lemmas CharSpec Types CursorModel ScanModel ScannerModel CursorProofs ScanProofs ScanQuoted RoundSpec LexSpec GapExact QuotedExact LexUnique.
From Verif Require PlainTrip.

Lemma adv_suffix t m t' m' : adv t m t' m' -> exists w, t = w ++ t'.
Proof.
  induction 1 as [t m|x t m t' m' B A [w ->]|t m t' m' A [w ->]|x t m t' m' B C A [w ->]].
  - exists []. reflexivity.
  - exists (x :: w). reflexivity.
  - exists (0xD :: 0xA :: w). reflexivity.
  - exists (x :: w). reflexivity.
Qed.
Lemma adv_index t m t' m' : adv t m t' m' -> m_index m' + N.of_nat (length t') = m_index m + N.of_nat (length t).
Proof. induction 1; cbn [next_column next_line m_index length] in *; lia. Qed.
Lemma stop_at flow t : is_blankz (nth 0 t 0) = false -> plain_stop flow t = true -> word_stops flow t.
Proof.
  intros Z H. unfold plain_stop in H. rewrite Z in H. cbn [orb] in H. apply orb_true_iff in H as [H|H]; apply andb_true_iff in H as [H1 H2].
  - right. left. split; [apply N.eqb_eq; exact H1|exact H2].
  - right. right. split; [exact H1|exact H2].
Qed.
Lemma flow_end_same x : flow_end x = flow_indicator x.
Proof. reflexivity. Qed.
Lemma indicator_marker t m : at_document_indicator t m = true -> m_column m = 0 /\ document_marker t.
Proof.
  unfold at_document_indicator. intros H. apply andb_true_iff in H as [H1 H]. split; [apply N.eqb_eq; exact H1|].
  unfold is_indicator in H. apply orb_true_iff in H as [H|H]; apply andb_true_iff in H as [H2 H3];
  (destruct t as [|x [|y [|z t]]]; try discriminate; cbn [is_triple] in H2; apply andb_true_iff in H2 as [H2 X3]; apply andb_true_iff in H2 as [X1 X2]; apply N.eqb_eq in X1, X2, X3; subst; cbn [nth] in H3).
  - exists 0x2D, t. auto.
  - exists 0x2E, t. auto.
Qed.

Lemma wp_triple k n t m c (Q : bool -> cur -> Prop) E : hold n t m c -> (3 <= n)%nat -> 0 < k -> is_ascii k = true -> Q (is_triple k t) c -> wp (triple k) c Q E.
Proof.
  intros H K K0 A HQ. unfold triple. apply wp_andc. eapply wp_check0; [exact H|lia|]. unfold eqc at 1.
  destruct t as [|x r]; cbn [nth].
  { cbn [is_triple] in HQ. replace (0 =? k) with false by lia. exact HQ. }
  destruct (N.eqb_spec x k) as [->|X].
  2:{ replace (is_triple k (x :: r)) with false in HQ; [exact HQ|].
      destruct r as [|y [|z r]]; auto. cbn. rewrite (proj2 (N.eqb_neq x k) X). reflexivity. }
  apply wp_andc. eapply wp_check; [exact H|lia|cbn [length]; lia|cbn; rewrite A; reflexivity|]. cbn [nth]. unfold eqc at 1.
  destruct r as [|y r]; cbn [nth].
  { cbn [is_triple] in HQ. replace (0 =? k) with false by lia. exact HQ. }
  destruct (N.eqb_spec y k) as [->|Y].
  2:{ replace (is_triple k (k :: y :: r)) with false in HQ; [exact HQ|].
      destruct r as [|z r]; auto. cbn. rewrite (proj2 (N.eqb_neq y k) Y), andb_false_r. reflexivity. }
  eapply wp_check; [exact H|lia|cbn [length]; lia|cbn; rewrite A; reflexivity|]. cbn [nth]. unfold eqc.
  destruct r as [|z r]; cbn [nth is_triple] in *; [replace (0 =? k) with false by lia; exact HQ|].
  rewrite !N.eqb_refl in HQ. exact HQ.
Qed.
Lemma wp_document_indicator n t m c (Q : bool -> cur -> Prop) E : hold n t m c -> (4 <= n)%nat -> Q (at_document_indicator t m) c -> wp document_indicator c Q E.
Proof.
  intros H K HQ. unfold document_indicator. apply wp_bind. eapply wp_column; [exact H|]. apply wp_andc, wp_ret. unfold at_document_indicator, is_indicator in HQ.
  destruct (m_column m =? 0); [|exact HQ]. cbn [andb] in HQ. apply wp_andc, wp_orc.
  eapply wp_triple; [exact H|lia|lia|reflexivity|].
  destruct (is_triple 0x2D t) eqn:T.
  { destruct (triple_ascii _ _ T eq_refl) as [A3 L3]. eapply wp_check; [exact H|lia|exact L3|exact A3|].
    replace (is_triple 0x2E t) with false in HQ; [cbn [andb orb] in HQ; rewrite orb_false_r in HQ; exact HQ|].
    clear -T. destruct t as [|x [|y [|z r]]]; try discriminate. cbn in *. lia. }
  eapply wp_triple; [exact H|lia|lia|reflexivity|].
  destruct (is_triple 0x2E t) eqn:T'; [|exact HQ].
  destruct (triple_ascii _ _ T' eq_refl) as [A3 L3].
  eapply wp_check; [exact H|lia|exact L3|exact A3|]. exact HQ.
Qed.

(* behind the text [t0], which is at [m0] *)
Section Start.
Variables (t0 : list N) (m0 : mark).
Definition after_start (t : list N) (m : mark) : Prop := exists pre, t0 = pre ++ t /\ m_index m = m_index m0 + N.of_nat (length pre).
Lemma start_char x t m : after_start (x :: t) m -> after_start t (next_column 1 m).
Proof. intros (pre & E0 & I0). exists (pre ++ [x]). split; [rewrite E0, <- app_assoc; reflexivity|]. cbn [next_column m_index]. rewrite app_length, I0. cbn [length]. lia. Qed.
Lemma start_adv t m t' m' : after_start t m -> adv t m t' m' -> after_start t' m'.
Proof.
  intros (pre & E0 & I0) A. destruct (adv_suffix _ _ _ _ A) as (w & ->). exists (pre ++ w). split; [rewrite E0, <- app_assoc; reflexivity|].
  pose proof (adv_index _ _ _ _ A) as X. rewrite app_length in *. lia.
Qed.
End Start.

Section Read.
Variables (t0 : list N) (m0 : mark) (flow : bool) (indent : Z) (start : mark) (E : serr -> Prop).
Hypothesis HEr : forall m, E (mkSerr SReader None m).
Variable good : list N -> list N -> bool -> Prop.
Definition nothing : Prop := forall v r lb, ~ good v r lb.
Hypothesis HEc : forall m, bad_colon flow t0 (m_index m - m_index m0) -> nothing -> E (mkSerr SPlainColon (Some start) m).
Hypothesis HEt : forall m, bad_tab indent t0 (m_index m - m_index m0) -> nothing -> E (mkSerr SPlainTab (Some start) m).
Notation after_start := (after_start t0 m0).

Definition ahead (v t : list N) : Prop := (forall v' r lb, plain flow indent t v' r lb -> good (v ++ v') r lb) /\
  forall v0 r lb, good v0 r lb -> exists v', v0 = v ++ v' /\ plain flow indent t v' r lb.
(* after the value [v], white space up to [t] *)
Definition pending (v : list N) (st : blanks) (t : list N) (m : mark) : Prop :=
  let '(lb, ws, leading, trailing) := st in
  if lb then exists w b s vs, Forall (fun x => is_blank x = true) w /\ line_break b /\ lines (indented_blank indent) b s vs (m_column m) /\
    ws = [] /\ leading = utf8 [break_value b] /\ trailing = utf8 vs /\ (last (b ++ s) 0 = 0xD -> nth 0 t 0 <> 0xA) /\ ahead v (w ++ b ++ s ++ t) /\
    exists pre, t0 = pre ++ w ++ b ++ s ++ t
  else exists w, Forall (fun x => is_blank x = true) w /\ ws = utf8 w /\ leading = [] /\ trailing = [] /\ ahead v (w ++ t) /\
    (flow = true \/ (indent <= Z.of_N (m_column m) + (if nonempty w then 0 else 1))%Z) /\
    exists pre, t0 = pre ++ w ++ t.
(* a word may begin *)
Definition ready (b : blanks) (t : list N) (m : mark) : Prop :=
  b = (false, [], [], []) \/ nth 0 t 0 <> 0x23 /\ not_white t /\
    (let '(lb, _, _, _) := b in lb = true -> (flow = true \/ (indent <= Z.of_N (m_column m))%Z) /\ at_document_indicator t m = false).

Lemma ahead_char v x t : in_word flow x t -> ahead v (x :: t) -> ahead (v ++ [x]) t.
Proof.
  intros W [K1 K2]. split.
  - intros v' r lb P. rewrite <- app_assoc. apply (K1 (x :: v')). constructor; assumption.
  - intros v0 r lb G. destruct (K2 _ _ _ G) as (v' & -> & P). destruct (inv_word _ _ _ _ _ _ _ W P) as (v1 & -> & P'). exists v1. split; [rewrite <- app_assoc; reflexivity|exact P'].
Qed.
Lemma marker_indicator t m : m_column m = 0 -> document_marker t -> at_document_indicator t m = true.
Proof. intros C M. apply PlainTrip.marker_at; assumption. Qed.
(* the first character of a word *)
Lemma pending_word v b x t m : pending v b (x :: t) m -> ready b (x :: t) m -> in_word flow x t ->
  exists v', more b v = utf8 v' /\ ahead v' (x :: t).
Proof.
  destruct b as [[[lb ws] ld] tr]. intros J R W. destruct lb.
  - destruct J as (w & b & s & vs & F & B & Ls & -> & -> & -> & _ & G & _). destruct R as [R|(R1 & R2 & R3)]; [discriminate|]. destruct (R3 eq_refl) as [R4 R5].
    exists (v ++ folded (break_value b) vs). split.
    { rewrite utf8_app, folded_utf8. cbn [more]. rewrite utf8_one. destruct (starts_lf (utf8_enc (break_value b))); [|reflexivity]. destruct (nonempty (utf8 vs)); reflexivity. }
    assert (Mk : m_column m = 0 -> ~ document_marker (x :: t)) by (intros C M; rewrite (marker_indicator _ _ C M) in R5; discriminate). destruct G as [G1 G2]. split.
    + intros v' r lb P. rewrite <- app_assoc. apply G1. eapply plain_fold; [exact F|exact B|exact Ls|exists x, t; auto|exact R4|exact Mk|exact P].
    + intros v0 r lb G. destruct (G2 _ _ _ G) as (v' & -> & P). destruct (inv_lines _ _ _ _ _ _ _ _ _ _ _ F B Ls R2 P) as [(v1 & _ & _ & _ & -> & P')|(_ & _ & _ & C)].
      * exists v1. split; [rewrite <- app_assoc; reflexivity|exact P'].
      * exfalso. destruct C as [C|[C|[[C1 C2]|[C1 C2]]]]; [exact (stops_word _ _ _ C W)|exact (R1 C)|exact (Mk C1 C2)|]. destruct R4 as [R4|R4]; [congruence|lia].
  - destruct J as (w & F & -> & -> & -> & G & _ & _). exists (v ++ w). split; [rewrite utf8_app; reflexivity|].
    destruct w as [|y w]; [rewrite app_nil_r; exact G|]. destruct R as [R|(R1 & R2 & _)].
    { injection R as R. change (utf8 (y :: w) = []) in R. apply utf8_nil_inv in R. discriminate. }
    destruct G as [G1 G2]. split.
    + intros v' r lb P. rewrite <- app_assoc. apply G1. apply plain_blanks; [discriminate|exact F|exists x, t; auto|exact P].
    + intros v0 r lb G. destruct (G2 _ _ _ G) as (v' & -> & P). destruct (inv_blanks _ _ _ _ _ _ _ F R2 P) as [[X _]|[(v1 & _ & _ & -> & P')|(_ & _ & _ & [C|[_ C]])]]; [discriminate| | |].
      * exists v1. split; [rewrite <- app_assoc; reflexivity|exact P'].
      * destruct (stops_word _ _ _ C W).
      * destruct (R1 C).
Qed.
Lemma pending_colon v b r m : pending v b (0x3A :: r) m -> flow = true -> flow_end (nth 0 r 0) || (nth 0 r 0 =? 0x3F) = true -> nothing.
Proof.
  intros J Fl X v0 r0 lb0 G.
  assert (Nb : is_blankz (nth 0 r 0) = false).
  { apply orb_true_iff in X as [X|X]; [|apply N.eqb_eq in X; rewrite X; reflexivity]. rewrite flow_end_same in X. unfold flow_indicator in X. cbn [existsb] in X. rewrite !orb_true_iff, !N.eqb_eq in X.
    destruct X as [->|[->|[->|[->|[->|X]]]]]; try discriminate; reflexivity. }
  assert (Nw : ~ in_word flow 0x3A r).
  { intros (_ & _ & W). destruct (W Fl) as [_ W']. destruct (W' eq_refl) as [W1 W2]. apply orb_true_iff in X as [X|X]; [rewrite flow_end_same in X; congruence|]. apply N.eqb_eq in X. congruence. }
  assert (Nb' : ~ word_begins flow (0x3A :: r)) by (intros (x & t' & E0 & _ & W); injection E0 as <- <-; exact (Nw W)).
  assert (Ns : ~ word_stops flow (0x3A :: r)) by (intros [W|[[_ W]|[_ W]]]; cbn [nth] in W; [discriminate|congruence|discriminate]).
  assert (N0 : not_white (0x3A :: r)) by (split; reflexivity).
  destruct b as [[[[] ws] ld] tr].
  - destruct J as (w & b & s & vs & F & B & Ls & _ & _ & _ & _ & [_ G2] & _). destruct (G2 _ _ _ G) as (v' & _ & P).
    destruct (inv_lines _ _ _ _ _ _ _ _ _ _ _ F B Ls N0 P) as [(v1 & W & _)|(_ & _ & _ & [C|[C|[[_ (k & q & K & C & _)]|[C _]]]])]; [exact (Nb' W)|exact (Ns C)|discriminate| |congruence].
    injection C as C _. destruct K as [K|K]; rewrite K in C; discriminate.
  - destruct J as (w & F & _ & _ & _ & [_ G2] & _). destruct (G2 _ _ _ G) as (v' & _ & P).
    destruct (inv_blanks _ _ _ _ _ _ _ F N0 P) as [[_ (x & t' & v1 & E0 & _ & W & _)]|[(v1 & _ & W & _)|(_ & _ & _ & [C|[_ C]])]]; [injection E0 as <- <-; exact (Nw W)|exact (Nb' W)|exact (Ns C)|discriminate].
Qed.
Lemma x_scan_plain_word s b e n t m c (Q : plain_state -> cur -> Prop) :
  hold n t m c -> (2 <= n)%nat -> after_start t m -> (exists v, s = utf8 v /\ pending v b t m) -> ready b t m -> 
  (forall v b e t' m' c', hold 1 t' m' c' -> adv t m t' m' -> after_start t' m' -> pending v b t' m' -> (b = (false, [], [], []) \/ ready b t' m') -> plain_stop flow t' = true -> Q (utf8 v, b, e) c') ->
  wp (scan_plain_word flow start (s, b, e)) c Q E.
Proof.
  intros H K Pre (v & -> & J0) R HQ. unfold scan_plain_word.
  apply (wp_loop (fun (a : plain_state) c => exists t' m', hold 2 t' m' c /\ let '(s, b, e) := a in after_start t' m' /\ adv t m t' m' /\ ready b t' m' /\ exists v, s = utf8 v /\ pending v b t' m')).
  { exists t, m. split; [eapply hold_le; [exact H|lia]|]. split; [exact Pre|]. split; [constructor|]. split; [exact R|]. exists v. auto. }
  clear H c v J0 b R e Pre. intros [[s b] e] c (t1 & m1 & H & Pre & A & R & v & -> & J). destruct b as [[[lb ws] ld] tr].
  apply wp_bind. eapply wp_check0; [exact H|lia|].
  assert (Leave : plain_stop flow t1 = true -> Q (utf8 v, (lb, ws, ld, tr), e) c).
  { intros St. eapply HQ; [eapply hold_le; [exact H|lia]|exact A|exact Pre|exact J|right; exact R|exact St]. }
  unfold plain_stop in Leave.
  destruct (is_blankz (nth 0 t1 0)) eqn:Bz; [apply wp_ret; auto|].
  assert (Z : nth 0 t1 0 <> 0) by (intros Z; rewrite Z in Bz; discriminate). assert (B : is_break (nth 0 t1 0) = false) by cls.
  destruct (nth0_cons _ Z) as [x [r ->]]. cbn [nth] in *. cbn [orb] in Leave.
  apply wp_bind.
  eapply (wp_mono _ _ (fun b c' => c' = c /\ b = flow && (x =? 0x3A) && (flow_end (nth 0 r 0) || (nth 0 r 0 =? 0x3F)))).
  { apply wp_andc, wp_ret. destruct flow; [|split; reflexivity]. apply wp_andc. eapply wp_check0; [exact H|lia|]. cbn [nth]. unfold eqc at 1.
    destruct (N.eqb_spec x 0x3A) as [->|]; [|split; reflexivity]. eapply wp_check; [exact H|lia|cbn [length]; lia|reflexivity|]. split; reflexivity. }
  2:{ intros ? W. exact W. }
  intros col ? [-> Ec]. destruct col.
  { symmetry in Ec. apply andb_true_iff in Ec as [Ec E2]. apply andb_true_iff in Ec as [E0 E1]. apply N.eqb_eq in E1. subst x. pose proof E0 as Ec0. pose proof E2 as Ec2.
    eapply wp_err; [exact H|]. apply HEc; [split; [exact E0|]|].
    { destruct Pre as (pre & -> & I0). destruct r as [|y r]; [discriminate|]. exists pre, y, r. split; [reflexivity|]. split; [lia|]. cbn [nth] in E2. apply orb_true_iff in E2 as [E2|E2]; [left; exact E2|right; apply N.eqb_eq; exact E2]. }
    { eapply pending_colon; [exact J|exact Ec0|exact Ec2]. } }
  apply wp_bind.
  eapply (wp_mono _ _ (fun b c' => c' = c /\ b = ((x =? 0x3A) && is_blankz (nth 0 r 0)) || (flow && flow_end x))).
  { apply wp_orc, wp_andc. eapply wp_check0; [exact H|lia|]. cbn [nth]. unfold eqc at 1.
    assert (Fe : wp (andc (ret flow) (check 0 flow_end)) c (fun b c' => c' = c /\ b = flow && flow_end x) E).
    { apply wp_andc, wp_ret. destruct flow; [|split; reflexivity]. eapply wp_check0; [exact H|lia|]. split; reflexivity. }
    destruct (N.eqb_spec x 0x3A) as [->|].
    - eapply wp_check; [exact H|lia|cbn [length]; lia|reflexivity|]. cbn [nth andb]. destruct (is_blankz (nth 0 r 0)); [split; reflexivity|exact Fe].
    - cbn [andb orb]. exact Fe. }
  2:{ intros ? W. exact W. }
  intros stop c1 [-> Es]. destruct stop; [apply wp_ret; auto|].
  assert (Wd : in_word flow x r).
  { split; [exact Bz|]. symmetry in Es, Ec. apply orb_false_iff in Es as [Es1 Es2]. split; [intros ->; exact Es1|]. intros Hf. rewrite Hf in Es2, Ec. split; [exact Es2|]. intros ->. cbn [andb] in Ec. apply orb_false_iff in Ec as [Ec1 Ec2]. split; [exact Ec1|apply N.eqb_neq; exact Ec2]. }
  destruct (pending_word v (lb, ws, ld, tr) x r m1 J R Wd) as (v1 & Ev & G). apply wp_bind.
  eapply (wp_mono _ _ (fun (s4 : list N) c' => c' = c /\ s4 = utf8 v1)); [|intros s4 c4 [-> ->]|intros ? W; exact W].
  { rewrite <- Ev. destruct lb; [|split; reflexivity]. unfold fold_breaks, more. destruct (starts_lf ld); [|split; reflexivity]. destruct (nonempty tr); split; reflexivity. }
  apply wp_bind. eapply wp_read; [exact H|]. intros c5 H5. apply wp_bind. eapply wp_get_mark; [exact H5|]. apply wp_bind. eapply wp_cache; [exact H5| |apply HEr]. intros c6 H6. apply wp_ret. split.
  2:{ rewrite (proj1 H), (proj1 H6). cbn [length]. lia. }
  assert (Ws : (if lb then ws else []) = []) by (destruct lb; [|reflexivity]; destruct J as (? & ? & ? & ? & ? & ? & ? & ? & ?); assumption).
  exists r, (next_column 1 m1). split; [eapply hold_le; [exact H6|lia]|]. split; [apply (start_char _ _ _ _ _ Pre)|].
  split; [eapply adv_trans; [exact A|apply adv_one; exact B]|]. rewrite Ws. split; [left; reflexivity|]. exists (v1 ++ [x]). split; [rewrite utf8_app, utf8_one; reflexivity|].
  exists []. split; [constructor|]. split; [reflexivity|]. split; [reflexivity|]. split; [reflexivity|]. split; [apply ahead_char; assumption|].
  split; [|destruct Pre as (pre & -> & _); exists (pre ++ [x]); rewrite <- app_assoc; reflexivity].
  cbn [nonempty next_column m_column]. destruct lb.
  - destruct R as [R|(_ & _ & R)]; [discriminate|]. destruct (R eq_refl) as [[R0|R0] _]; [left; exact R0|right; lia].
  - destruct J as (w & _ & _ & _ & _ & _ & [J|J] & _); [left; exact J|right; destruct (nonempty w); lia].
Qed.
Definition moved (b : blanks) (t t' : list N) (m' : mark) : Prop :=
  t' = t \/ let '(lb, ws, _, _) := b in (lb = true \/ ws <> []) /\ (lb = false -> m_column m' <> 0).
Lemma x_scan_plain_blanks v n t m c (Q : blanks -> cur -> Prop) :
  hold n t m c -> (1 <= n)%nat -> after_start t m -> pending v (false, [], [], []) t m ->
  (forall b t' m' c', hold 1 t' m' c' -> adv t m t' m' -> after_start t' m' -> pending v b t' m' -> not_white t' -> moved b t t' m' -> Q b c') ->
  wp (scan_plain_blanks indent start (false, [], [], [])) c Q E.
Proof.
  intros H K Pre J0 HQ. unfold scan_plain_blanks.
  apply (wp_loop (fun (a : blanks) c => exists t' m', hold 1 t' m' c /\ after_start t' m' /\ adv t m t' m' /\ pending v a t' m' /\ moved a t t' m')).
  { exists t, m. split; [eapply hold_le; [exact H|lia]|]. split; [exact Pre|]. split; [constructor|]. split; [exact J0|left; reflexivity]. }
  clear H c J0 Pre. intros [[[lb ws] ld] tr] c (t1 & m1 & H & Pre & A & J & Mv). apply wp_bind. eapply wp_peek0; [exact H|lia|].
  destruct (is_blank (nth 0 t1 0)) eqn:Bl.
  { destruct (nth0_cons t1) as (x & r & ->); [intros Z; rewrite Z in Bl; discriminate|]. cbn [nth] in *.
    assert (A' : adv t m r (next_column 1 m1)) by (eapply adv_trans; [exact A|]; apply adv_one; cls).
    pose proof (start_char _ _ _ _ _ Pre) as Pre'.
    apply wp_bind. eapply wp_column; [exact H|].
    destruct (lb && (Z.of_N (m_column m1) <? indent)%Z && is_tab x) eqn:Tb.
    { eapply wp_err; [exact H|]. apply andb_true_iff in Tb as [Tb T3]. apply andb_true_iff in Tb as [T1 T2]. apply N.eqb_eq in T3. subst x lb. apply Z.ltb_lt in T2.
      destruct J as (w & b & s & vs & F & B & Ls & _ & _ & _ & _ & [_ G2] & (pre1 & E1)). apply HEt.
      2:{ intros v0 r0 lb0 G. destruct (G2 _ _ _ G) as (v' & _ & P). eapply inv_tab; eauto. }
      exists (pre1 ++ w), b, s, vs, (m_column m1), r. split; [rewrite <- app_assoc; exact E1|]. split; [|auto]. destruct Pre as (pre & E2 & I0). rewrite E2 in E1. apply (f_equal (@length N)) in E1. rewrite !app_length in E1. rewrite !app_length. cbn [length] in E1. lia. }
    destruct lb.
    - apply wp_bind. eapply wp_skip; [exact H|]. intros c1 H1. apply wp_bind. eapply wp_cache; [exact H1| |apply HEr]. intros c2 H2. apply wp_ret. split; [|rewrite (proj1 H), (proj1 H2); cbn [length]; lia].
      exists r, (next_column 1 m1). split; [eapply hold_le; [exact H2|lia]|]. split; [exact Pre'|]. split; [exact A'|]. split; [|right; split; [left; reflexivity|discriminate]].
      destruct J as (w & b & s & vs & F & B & Ls & -> & -> & -> & C & G & (pre1 & E1)). exists w, b, (s ++ [x]), vs. split; [exact F|]. split; [exact B|]. split.
      { cbn [next_column m_column]. apply lines_blank; [exact Ls|]. unfold is_blank, is_space, is_tab in *. unfold indented_blank. cbn [andb] in Tb. lia. }
      split; [reflexivity|]. split; [reflexivity|]. split; [reflexivity|]. split; [rewrite app_assoc, last_last; intros ->; discriminate|]. rewrite <- app_assoc. split; [exact G|]. exists pre1. exact E1.
    - apply wp_bind. eapply wp_read; [exact H|]. intros c1 H1. apply wp_bind. eapply wp_cache; [exact H1| |apply HEr]. intros c2 H2. apply wp_ret. split; [|rewrite (proj1 H), (proj1 H2); cbn [length]; lia].
      exists r, (next_column 1 m1). split; [eapply hold_le; [exact H2|lia]|]. split; [exact Pre'|]. split; [exact A'|]. split; [|right; split; [right; intros X; apply app_eq_nil in X as [_ X]; revert X; apply utf8_enc_nonempty|intros _; cbn [next_column m_column]; lia]].
      destruct J as (w & F & -> & -> & -> & G & D & (pre1 & E1)). exists (w ++ [x]). split; [apply Forall_app; auto|]. split; [rewrite utf8_app, utf8_one; reflexivity|]. split; [reflexivity|]. split; [reflexivity|].
      rewrite <- app_assoc. split; [exact G|]. cbn [next_column m_column]. split; [destruct D as [D|D]; [left; exact D|right]; destruct (nonempty w), (nonempty (w ++ [x])); lia | exists pre1; exact E1]. }
  destruct (is_break (nth 0 t1 0)) eqn:Bk.
  - apply wp_bind. eapply wp_cache; [exact H| |apply HEr]. intros c1 H1.
    assert (Kr : forall s0 k, (forall t2 m2 c2 c3 b2, line_step t1 m1 t2 m2 -> t1 = b2 ++ t2 -> line_break b2 -> (b2 = [0xD] -> nth 0 t2 0 <> 0xA) -> m_column m2 = 0 -> hold 0 t2 m2 c2 -> hold 1 t2 m2 c3 ->
       exists st, k (s0 ++ utf8 [break_value b2]) = inl st /\ pending v st t2 m2 /\ moved st t t2 m2) ->
      wp (x <- read_line s0 ;; cache 1 ;;; ret (k x)) c1 (fun r c' => match r with
        | inl a' => (exists t' m', hold 1 t' m' c' /\ after_start t' m' /\ adv t m t' m' /\ pending v a' t' m' /\ moved a' t t' m') /\ (length (c_text c') < length (c_text c))%nat
        | inr b => Q b c' end) E).
    { intros s0 k Kk. apply wp_bind. eapply wp_read_line; [exact H1|lia|exact Bk|]. intros t2 m2 c2 S2 H2. apply wp_bind. eapply wp_cache; [exact H2| |apply HEr]. intros c3 H3. apply wp_ret.
      destruct (line_step_break _ _ _ _ S2) as (b2 & E2 & B2 & N2 & C2). destruct (line_break_some _ B2) as (Nb & _).
      destruct (Kk t2 m2 c2 c3 b2 S2 E2 B2 N2 C2) as (st & Ek & Js); [eapply hold_le; [exact H2|lia]|eapply hold_le; [exact H3|lia]|].
      rewrite utf8_one, (break_one b2 B2) in Ek. rewrite E2, break_bytes_app by exact Nb. rewrite Ek. split.
      - exists t2, m2. split; [eapply hold_le; [exact H3|lia]|]. split; [eapply start_adv; [exact Pre|apply line_step_adv; exact S2]|]. split; [eapply adv_trans; [exact A|apply line_step_adv; exact S2]|exact Js].
      - rewrite (proj1 H3), (proj1 H). eapply line_step_len; eauto. }
    destruct lb.
    + apply (Kr tr (fun trailing => inl (true, ws, ld, trailing))). intros t2 m2 c2 c3 b2 S2 E2 B2 N2 C2 H2 H3. destruct (line_break_some _ B2) as (Nb & _). eexists. split; [reflexivity|]. split; [|right; split; [left; reflexivity|discriminate]]. cbn [pending]. rewrite C2.
      destruct J as (w & b & s & vs & F & B & Ls & -> & -> & -> & C & G & (pre1 & E1)). exists w, b, (s ++ b2), (vs ++ [break_value b2]). split; [exact F|]. split; [exact B|]. split.
      { eapply lines_break; [exact Ls|exact B2|]. intros X ->. apply (C X). rewrite E2. reflexivity. }
      split; [reflexivity|]. split; [reflexivity|]. split; [rewrite utf8_app; reflexivity|]. split.
      { intros X. apply (last_cr b2 t2 B2 N2). destruct (exists_last Nb) as (u & y & ->). rewrite !app_assoc, last_last in X. rewrite last_last. exact X. }
      rewrite <- !app_assoc. rewrite E2 in G, E1. split; [exact G|]. exists pre1. exact E1.
    + apply (Kr ld (fun leading => inl (true, [], leading, tr))). intros t2 m2 c2 c3 b2 S2 E2 B2 N2 C2 H2 H3. eexists. split; [reflexivity|]. split; [|right; split; [left; reflexivity|discriminate]]. cbn [pending]. rewrite C2.
      destruct J as (w & F & -> & -> & -> & G & D & (pre1 & E1)). exists w, b2, [], []. split; [exact F|]. split; [exact B2|]. split; [constructor|]. split; [reflexivity|]. split; [reflexivity|]. split; [reflexivity|]. split.
      { rewrite app_nil_r. apply (last_cr b2 t2 B2 N2). }
      rewrite E2 in G, E1. split; [exact G|]. exists pre1. exact E1.
  - apply wp_ret. eapply HQ; [exact H|exact A|exact Pre|exact J|split; assumption|exact Mv].
Qed.
(* the scalar ends *)
Lemma pending_end v lb ws ld tr t m : pending v (lb, ws, ld, tr) t m ->
  (word_stops flow t \/ (lb = true \/ ws <> []) /\ nth 0 t 0 = 0x23 \/ lb = true /\ not_white t /\ (at_document_indicator t m = true \/ flow = false /\ (Z.of_N (m_column m) < indent)%Z)) ->
  not_white t -> good v t lb /\ forall v0 r0 lb0, good v0 r0 lb0 -> v0 = v /\ r0 = t /\ lb0 = lb.
Proof.
  intros J C W.
  destruct lb.
  - destruct J as (w & b & s & vs & F & B & Ls & _ & _ & _ & _ & [G1 G2] & _). split.
    + rewrite <- (app_nil_r v). apply G1. eapply plain_end_lines; [exact F|exact B|exact Ls|exact W|].
      destruct C as [C|[[_ C]|(_ & _ & [C|C])]]; [left; exact C|right; left; exact C| |right; right; right; exact C].
      right. right. left. apply indicator_marker. exact C.
    + intros v0 r0 lb0 G. destruct (G2 _ _ _ G) as (v' & -> & P). destruct (inv_lines _ _ _ _ _ _ _ _ _ _ _ F B Ls W P) as [(v1 & Wb & Co & Mk & _)|(-> & -> & -> & _)]; [exfalso|rewrite app_nil_r; auto].
      destruct C as [C|[[_ C]|(_ & _ & [C|[C1 C2]])]]; [eapply stops_begins; eauto|eapply hash_begins; eauto| |destruct Co as [Co|Co]; [congruence|lia]].
      apply indicator_marker in C as [C1 C2]. exact (Mk C1 C2).
  - destruct J as (w & F & -> & _ & _ & [G1 G2] & _).
    assert (C' : word_stops flow t \/ w <> [] /\ head t = 0x23).
    { destruct C as [C|[[[C|C] D]|(C & _)]]; [left; exact C|discriminate| |discriminate]. right. split; [|exact D]. intros ->. apply C. reflexivity. }
    split; [rewrite <- (app_nil_r v); apply G1; apply plain_end; [exact F|exact C']|].
    intros v0 r0 lb0 G. destruct (G2 _ _ _ G) as (v' & -> & P). destruct (inv_blanks _ _ _ _ _ _ _ F W P) as [[-> (x & t' & v1 & -> & _ & Wd & _)]|[(v1 & _ & Wb & _)|(-> & -> & -> & _)]]; [exfalso|exfalso|rewrite app_nil_r; auto].
    + destruct C' as [C'|[C' _]]; [eapply stops_word; eauto|exact (C' eq_refl)].
    + destruct C' as [C'|[_ C']]; [eapply stops_begins; eauto|eapply hash_begins; eauto].
Qed.
End Read.

Definition plain_outcome (flow : bool) (indent : Z) (t : list N) (m : mark) (r : cres (token * bool)) : Prop :=
  match r with
  | COk (tk, lb) c' => exists v e, tk = mkToken (TScalar (utf8 v) Plain) m e false /\ plain flow indent t v (c_text c') lb /\ forall v0 r0 lb0, plain flow indent t v0 r0 lb0 -> v0 = v /\ r0 = c_text c' /\ lb0 = lb
  | CErr e => se_problem e = SReader \/ (se_problem e = SPlainColon /\ bad_colon flow t (m_index (se_mark e) - m_index m) \/ se_problem e = SPlainTab /\ bad_tab indent t (m_index (se_mark e) - m_index m)) /\
      forall v r lb, ~ plain flow indent t v r lb
  | _ => False
  end.
Lemma x_scan_plain_scalar flow pindent c : not_white (c_text c) -> ~ word_stops flow (c_text c) -> nth 0 (c_text c) 0 <> 0x23 ->
  at_document_indicator (c_text c) (c_mark c) = false -> (flow = true \/ (pindent <= Z.of_N (m_column (c_mark c)))%Z) ->
  plain_outcome flow (pindent + 1) (c_text c) (c_mark c) (scan_plain_scalar flow pindent c).
Proof.
  set (t := c_text c). set (m := c_mark c). intros Nw Ns Hs Di Co.
  set (E := fun e => se_problem e = SReader \/ (se_problem e = SPlainColon /\ bad_colon flow t (m_index (se_mark e) - m_index m) \/ se_problem e = SPlainTab /\ bad_tab (pindent + 1) t (m_index (se_mark e) - m_index m)) /\ forall v r lb, ~ plain flow (pindent + 1) t v r lb).
  set (good := fun v r lb => plain flow (pindent + 1) t v r lb).
  assert (H : hold 0 t m c) by (repeat split; lia).
  cut (wp (scan_plain_scalar flow pindent) c (fun a c' => exists v e, fst a = mkToken (TScalar (utf8 v) Plain) m e false /\ plain flow (pindent + 1) t v (c_text c') (snd a) /\ forall v0 r0 lb0, plain flow (pindent + 1) t v0 r0 lb0 -> v0 = v /\ r0 = c_text c' /\ lb0 = snd a) E).
  { unfold wp. destruct (scan_plain_scalar flow pindent c) as [[tk lb] c'|e| |]; cbn; auto. }
  assert (HEr : forall m, E (mkSerr SReader None m)) by (left; reflexivity).
  assert (HEc : forall m', bad_colon flow t (m_index m' - m_index m) -> nothing good -> E (mkSerr SPlainColon (Some m) m')) by (right; split; [left; auto|assumption]).
  assert (HEt : forall m', bad_tab (pindent + 1) t (m_index m' - m_index m) -> nothing good -> E (mkSerr SPlainTab (Some m) m')) by (right; split; [right; auto|assumption]).
  unfold scan_plain_scalar. apply wp_bind. eapply wp_get_mark; [exact H|]. apply wp_bind.
  eapply (wp_loop (fun (a : plain_state) c => exists t' m', hold 0 t' m' c /\ let '(s, b, e) := a in after_start t m t' m' /\ not_white t' /\
     (flow = true \/ (let '(lb, _, _, _) := b in lb = true -> pindent + 1 <= Z.of_N (m_column m'))%Z) /\
     ((t' = t /\ m' = m /\ b = (false, [], [], [])) \/ (let '(lb, ws, _, _) := b in (lb = true \/ ws <> []) /\ (lb = false -> m_column m' <> 0))) /\
     exists v, s = utf8 v /\ pending t flow (pindent + 1) good v b t' m')).
  { exists t, m. split; [exact H|]. split; [exists []; split; [reflexivity|cbn; lia]|]. split; [exact Nw|]. split; [right; discriminate|]. split; [left; auto|].
    exists []. split; [reflexivity|]. exists []. split; [constructor|]. split; [reflexivity|]. split; [reflexivity|]. split; [reflexivity|].
    split; [split; [intros v' r lb P; exact P|intros v0 r lb P; exists v0; auto]|]. split; [destruct Co as [Co|Co]; [left; exact Co|right; cbn [nonempty]; lia]|exists []; reflexivity]. }
  clear H. intros [[s b] e] c1 (t1 & m1 & H1 & Pre & W1 & Ci & Fi & v & -> & J). apply wp_bind. eapply wp_cache; [exact H1| |apply HEr]. intros c2 H2.
  assert (Leave : forall v lb ws ld tr e c', (good v (c_text c') lb /\ forall v0 r0 lb0, good v0 r0 lb0 -> v0 = v /\ r0 = c_text c' /\ lb0 = lb) ->
     wp (let '(s, (lb, _, _, _), e) := (utf8 v, (lb, ws, ld, tr), e) : plain_state in ret (mkToken (TScalar s Plain) m e false, lb)) c'
       (fun a c' => exists v e, fst a = mkToken (TScalar (utf8 v) Plain) m e false /\ plain flow (pindent + 1) t v (c_text c') (snd a) /\ forall v0 r0 lb0, plain flow (pindent + 1) t v0 r0 lb0 -> v0 = v /\ r0 = c_text c' /\ lb0 = snd a) E).
  { intros v' lb' ws' ld' tr' e' c' G. apply wp_ret. exists v', e'. split; [reflexivity|exact G]. }
  apply wp_bind. eapply wp_document_indicator; [exact H2|lia|]. destruct b as [[[lb ws] ld] tr].
  destruct (at_document_indicator t1 m1) eqn:D1.
  { apply wp_ret. apply (Leave v lb ws ld tr). rewrite (proj1 H2). eapply (pending_end t m flow (pindent + 1) m E HEr good HEc HEt); [exact J| |exact W1]. right. right.
    destruct Fi as [(-> & -> & _)|Fi]; [rewrite Di in D1; discriminate D1|]. destruct Fi as [_ Fi].
    destruct lb; [split; [reflexivity|]; split; [exact W1|left; exact D1]|]. exfalso. apply (Fi eq_refl). apply indicator_marker in D1 as [D1 _]. exact D1. }
  apply wp_bind. eapply wp_check0; [exact H2|lia|]. unfold eqc at 1. destruct (N.eqb_spec (nth 0 t1 0) 0x23) as [Hs1|Hs1].
  { apply wp_ret. apply (Leave v lb ws ld tr). rewrite (proj1 H2). eapply (pending_end t m flow (pindent + 1) m E HEr good HEc HEt); [exact J| |exact W1]. right. left. split; [|exact Hs1].
    destruct Fi as [(-> & -> & _)|[Fi _]]; [contradiction|exact Fi]. }
  apply wp_bind. eapply (x_scan_plain_word t m flow (pindent + 1) m E HEr good HEc HEt); [exact H2|lia|exact Pre|exists v; split; [reflexivity|exact J]| |].
  { right. split; [exact Hs1|]. split; [exact W1|]. intros ->. split; [|exact D1]. destruct Ci as [Ci|Ci]; [left; exact Ci|right; apply Ci; reflexivity]. }
  clear v J H2 c2. intros v2 b2 e2 t2 m2 c2 H2 A2 Pre2 J2 R2 St2. apply wp_bind. eapply wp_check0; [exact H2|lia|].
  destruct b2 as [[[lb2 ws2] ld2] tr2].
  destruct (is_blank (nth 0 t2 0) || is_break (nth 0 t2 0)) eqn:Mo; cbn [negb].
  2:{ apply wp_ret. apply (Leave v2 lb2 ws2 ld2 tr2). rewrite (proj1 H2). apply orb_false_iff in Mo as [M1 M2]. eapply (pending_end t m flow (pindent + 1) m E HEr good HEc HEt); [exact J2| |split; assumption]. left.
      destruct (is_blankz (nth 0 t2 0)) eqn:Bz; [left; unfold is_blankz, is_breakz in Bz; rewrite M1, M2 in Bz; cbn [orb] in Bz; unfold is_z in Bz; apply N.eqb_eq; destruct (nth 0 t2 0 =? 0); [reflexivity|discriminate]|apply stop_at; assumption]. }
  assert (Eb : (lb2, ws2, ld2, tr2) = (false, [], [], [])).
  { destruct R2 as [R2|[R2|(_ & [R2 R2'] & _)]]; [exact R2|exact R2|]. rewrite R2, R2' in Mo. discriminate. }
  injection Eb as -> -> -> ->. apply wp_bind. eapply wp_cache; [exact H2| |apply HEr]. intros c3 H3. apply wp_bind.
  eapply (x_scan_plain_blanks t m flow (pindent + 1) m E HEr good HEc HEt); [exact H3|lia|exact Pre2|exact J2|]. intros b4 t4 m4 c4 H4 A4 Pre4 J4 W4 Mv4.
  apply wp_bind. eapply wp_column; [exact H4|].
  assert (Ne : (length t4 < length t2)%nat).
  { pose proof (adv_len _ _ _ _ A4). destruct (Nat.eq_dec (length t4) (length t2)) as [Eq|]; [|lia]. assert (t2 = t4) by (eapply adv_same_len; eauto). subst t4. destruct W4 as [W5 W6]. rewrite W5, W6 in Mo. discriminate. }
  destruct b4 as [[[lb4 ws4] ld4] tr4].
  destruct (negb flow && (Z.of_N (m_column m4) <? pindent + 1)%Z) eqn:De.
  { apply wp_ret. apply (Leave v2 lb4 ws4 ld4 tr4). rewrite (proj1 H4). apply andb_true_iff in De as [D2 D3]. apply negb_true_iff in D2. apply Z.ltb_lt in D3.
    eapply (pending_end t m flow (pindent + 1) m E HEr good HEc HEt); [exact J4| |exact W4]. right. right. destruct lb4; [split; [reflexivity|]; split; [exact W4|right; auto]|]. exfalso.
    destruct Mv4 as [->|[[Mv4|Mv4] _]]; [lia|discriminate|]. destruct J4 as (w & _ & -> & _ & _ & _ & D & _). destruct w as [|y w]; [apply Mv4; reflexivity|]. cbn [nonempty] in D. destruct D as [D|D]; [congruence|lia]. }
  apply wp_ret. split.
  2:{ rewrite (proj1 H4), (proj1 H1). apply adv_len in A2. lia. }
  exists t4, m4. split; [eapply hold_le; [exact H4|lia]|]. split; [exact Pre4|]. split; [exact W4|]. split; [|split].
  - destruct flow; [left; reflexivity|]. right. intros _. cbn [negb andb] in De. lia.
  - right. destruct Mv4 as [->|Mv4]; [lia|exact Mv4].
  - exists v2. split; [reflexivity|exact J4].
Qed.
Theorem plain_exact flow pindent c : not_white (c_text c) -> ~ word_stops flow (c_text c) -> nth 0 (c_text c) 0 <> 0x23 ->
  (m_column (c_mark c) = 0 -> ~ document_marker (c_text c)) -> (flow = true \/ (pindent <= Z.of_N (m_column (c_mark c)))%Z) ->
  match scan_plain_scalar flow pindent c with
  | COk (tk, lb) c' => exists v e, tk = mkToken (TScalar (utf8 v) Plain) (c_mark c) e false /\
      forall v' r lb', plain flow (pindent + 1) (c_text c) v' r lb' <-> v' = v /\ r = c_text c' /\ lb' = lb
  | CErr e => se_problem e = SReader \/
      (se_problem e = SPlainColon /\ bad_colon flow (c_text c) (m_index (se_mark e) - m_index (c_mark c)) \/
       se_problem e = SPlainTab /\ bad_tab (pindent + 1) (c_text c) (m_index (se_mark e) - m_index (c_mark c))) /\
      forall v r lb, ~ plain flow (pindent + 1) (c_text c) v r lb
  | CBad | CFuel => False
  end.
Proof.
  intros H1 H2 H3 H4 H5. assert (X : plain_outcome flow (pindent + 1) (c_text c) (c_mark c) (scan_plain_scalar flow pindent c)).
  2:{ unfold plain_outcome in X. destruct (scan_plain_scalar flow pindent c) as [[tk lb] c'|e| |]; auto. destruct X as (v & e & -> & P & U). exists v, e. split; [reflexivity|].
      intros v' r lb'. split; [apply U|intros (-> & -> & ->); exact P]. }
  apply x_scan_plain_scalar; try assumption.
  destruct (at_document_indicator (c_text c) (c_mark c)) eqn:D; [|reflexivity]. apply indicator_marker in D as [D1 D2]. destruct (H4 D1 D2).
Qed.
