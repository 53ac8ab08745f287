(* A text is read in one way only. *)
From Verif Require Import Base ReaderModel Utf8Spec CharSpec Types CursorModel ScanModel ScannerModel CursorProofs ScanProofs ScannerSpec ScannerLoop ScannerFinal RoundSpec LexSpec LexUnique GapExact QuotedExact PlainExact BlockExact TagLex LexemeSpec Lexemes LexemeRun LexemeLoop.

(* without ill-formed input there is no reader error *)
Definition calm {A} (m : cm A) : Prop := forall c, c_bad c = false ->
  match m c with COk _ c' => c_bad c' = false | CErr e => se_problem e <> SReader | CBad | CFuel => True end.
Lemma calm_ret {A} (a : A) : calm (ret a). Proof. intros c H. exact H. Qed.
Lemma calm_bind {A B} (m : cm A) (k : A -> cm B) : calm m -> (forall a, calm (k a)) -> calm (bind m k).
Proof. intros H K c B0. unfold bind. specialize (H c B0). destruct (m c) as [a c'|e| |]; auto. exact (K a c' H). Qed.
Lemma calm_err {A} ctx p : p <> SReader -> calm (@err A ctx p). Proof. intros H c _. exact H. Qed.
Lemma calm_ub {A} : calm (@ub A). Proof. intros c _. exact I. Qed.
Lemma calm_mark : calm get_mark. Proof. intros c H. exact H. Qed.
Lemma calm_column : calm column. Proof. intros c H. exact H. Qed.
Lemma calm_cache n : calm (cache n).
Proof. intros c H. unfold cache. rewrite H. destruct (n <=? c_unread c)%nat; [exact H|]. cbn [andb]. reflexivity. Qed.
Lemma calm_peek k : calm (peek k). Proof. intros c H. unfold peek. destruct (_ && _); auto. Qed.
Lemma calm_skip : calm skip. Proof. intros c H. unfold skip. destruct (c_text c); [exact I|]. destruct (c_unread c); [exact I|]. exact H. Qed.
Lemma calm_drop_line k : calm (drop_line k). Proof. intros c H. unfold drop_line. destruct (_ && _); [exact H|exact I]. Qed.
Lemma calm_loop {A B} (body : A -> cm (A + B)) a : (forall a, calm (body a)) -> calm (loop body a).
Proof.
  intros H c. unfold loop. generalize (S (length (c_text c))). intros n. revert a c. induction n as [|n IH]; intros a c B0; [exact I|]. cbn [loop_n]. pose proof (H a c B0) as K.
  destruct (body a c) as [[a'|b] c'|e| |]; auto.
  exact (IH a' c' K).
Qed.
Lemma calm_andc a b : calm a -> calm b -> calm (andc a b).
Proof. intros Ha Hb. apply calm_bind; [exact Ha|]. intros []; [exact Hb|apply calm_ret]. Qed.
Lemma calm_orc a b : calm a -> calm b -> calm (orc a b).
Proof. intros Ha Hb. apply calm_bind; [exact Ha|]. intros []; [apply calm_ret|exact Hb]. Qed.
Lemma calm_check k p : calm (check k p).
Proof. apply calm_bind; [apply calm_peek|]. intros; apply calm_ret. Qed.
Create HintDb ca discriminated.
#[local] Hint Resolve calm_ret calm_ub calm_mark calm_column calm_cache calm_peek calm_skip calm_drop_line calm_check : ca.
Ltac ca :=
  repeat (intros; match goal with
  | |- calm (bind _ _) => apply calm_bind
  | |- calm (andc _ _) => apply calm_andc
  | |- calm (orc _ _) => apply calm_orc
  | |- calm (loop _ _) => apply calm_loop
  | |- calm (err _ _) => apply calm_err; discriminate
  | |- calm (if ?b then _ else _) => destruct b
  | |- calm (match ?x with _ => _ end) => destruct x
  | |- _ => solve [auto with ca]
  end).
Lemma calm_crlf : calm is_crlf. Proof. unfold is_crlf. ca. Qed.
#[local] Hint Resolve calm_crlf : ca.
Lemma calm_skip_line : calm skip_line. Proof. unfold skip_line. ca. Qed.
Lemma calm_read s : calm (read s). Proof. unfold read. ca. Qed.
Lemma calm_read_line s : calm (read_line s). Proof. unfold read_line. ca. Qed.
Lemma calm_put s bs : calm (put s bs). Proof. unfold put. ca. Qed.
Lemma calm_triple x : calm (triple x). Proof. unfold triple. ca. Qed.
#[local] Hint Resolve calm_skip_line calm_read calm_read_line calm_put calm_triple : ca.
Lemma calm_skip_while p : calm (skip_while p). Proof. unfold skip_while. ca. Qed.
Lemma calm_read_while p s : calm (read_while p s). Proof. unfold read_while. ca. Qed.
Lemma calm_document_indicator : calm document_indicator. Proof. unfold document_indicator. ca. Qed.
Lemma calm_scan_hex n : forall k s v, calm (scan_hex n k s v). Proof. induction n; intros; cbn [scan_hex]; ca. Qed.
Lemma calm_skip_n n : calm (skip_n n). Proof. induction n; cbn [skip_n]; ca. Qed.
#[local] Hint Resolve calm_skip_while calm_read_while calm_document_indicator calm_scan_hex calm_skip_n : ca.
Lemma calm_scan_escape s x : calm (scan_escape s x). Proof. unfold scan_escape. ca. Qed.
#[local] Hint Resolve calm_scan_escape : ca.
Lemma calm_scan_quoted_word b s x : calm (scan_quoted_word b s x). Proof. unfold scan_quoted_word. ca. Qed.
Lemma calm_scan_quoted_blanks b : calm (scan_quoted_blanks b). Proof. unfold scan_quoted_blanks. ca. Qed.
Lemma calm_fold_breaks s l t : calm (fold_breaks s l t). Proof. unfold fold_breaks. ca. Qed.
#[local] Hint Resolve calm_scan_quoted_word calm_scan_quoted_blanks calm_fold_breaks : ca.
Lemma calm_scan_flow_scalar b : calm (scan_flow_scalar b). Proof. unfold scan_flow_scalar. ca. Qed.
Lemma calm_plain_word f i b : calm (scan_plain_word f i b). Proof. unfold scan_plain_word. ca. Qed.
Lemma calm_line_end m p : p <> SReader -> calm (scan_line_end m p). Proof. intros. unfold scan_line_end. repeat first [apply calm_err; assumption|progress ca]. Qed.
#[local] Hint Resolve calm_plain_word : ca.
Lemma calm_plain_blanks i m b : calm (scan_plain_blanks i m b). Proof. unfold scan_plain_blanks. ca. Qed.
#[local] Hint Resolve calm_plain_blanks : ca.
Lemma calm_plain_scalar f i : calm (scan_plain_scalar f i). Proof. unfold scan_plain_scalar. ca. Qed.
Lemma calm_block_breaks p i b m : calm (scan_block_scalar_breaks p i b m). Proof. unfold scan_block_scalar_breaks. ca. Qed.
Lemma calm_block_header m : calm (scan_block_header m). Proof. unfold scan_block_header. ca. Qed.
Lemma calm_block_line_end m : calm (scan_line_end m SBlockHeaderEnd). Proof. apply calm_line_end. discriminate. Qed.
#[local] Hint Resolve calm_block_breaks calm_block_header calm_block_line_end : ca.
Lemma calm_block_scalar i l : calm (scan_block_scalar i l). Proof. unfold scan_block_scalar. ca. Qed.

Definition whole (t : list N) (m : mark) : cur := mkCur t (S (length t)) [] false m.
Lemma quoted_unique single t s r s' r' : quoted_text single t s r -> quoted_text single t s' r' -> s = s' /\ r = r'.
Proof.
  intros H H'. pose proof (quoted_exactly single (whole (quote single :: t) mark0) t ltac:(cbn; lia) eq_refl) as X.
  pose proof (calm_scan_flow_scalar single (whole (quote single :: t) mark0) eq_refl) as C. destruct (scan_flow_scalar single _) as [tk c'|e| |]; try contradiction.
  - destruct X as (s0 & _ & X). apply X in H, H'. destruct H, H'. subst. auto.
  - destruct X as [X|X]; [contradiction|]. destruct (X _ _ H).
Qed.
Lemma block_unique literal indent t v r v' r' : block_scalar literal indent t v r -> block_scalar literal indent t v' r' -> v = v' /\ r = r'.
Proof.
  intros H H'. pose proof (block_exact literal indent (whole (0x7C :: t) mark0) 0x7C t ltac:(cbn; lia) eq_refl) as X.
  pose proof (calm_block_scalar indent literal (whole (0x7C :: t) mark0) eq_refl) as C. destruct (scan_block_scalar indent literal _) as [tk c'|e| |]; try contradiction.
  - destruct X as (s0 & ? & _ & X). apply X in H, H'. destruct H, H'. subst. auto.
  - destruct X as [X|[_ X]]; [contradiction|]. destruct (X _ _ H).
Qed.
Lemma plain_unique flow indent t v r lb v' r' lb' : plain_opens flow t -> plain flow (indent + 1) t v r lb -> plain flow (indent + 1) t v' r' lb' -> v = v' /\ r = r' /\ lb = lb'.
Proof.
  intros O H H'. destruct (opens_plain _ _ O) as (O1 & O2 & O3).
  pose proof (plain_exact flow indent (whole t (mkMark 0 0 (Z.to_N indent + 1))) O1 O2 O3) as X. cbn [c_mark whole m_column] in X.
  specialize (X ltac:(intros; lia) ltac:(right; lia)).
  pose proof (calm_plain_scalar flow indent (whole t (mkMark 0 0 (Z.to_N indent + 1))) eq_refl) as C. destruct (scan_plain_scalar flow indent _) as [[tk b] c'|e| |]; try contradiction.
  - destruct X as (s0 & ? & _ & X). apply X in H, H'. destruct H as (? & ? & ?), H' as (? & ? & ?). subst. auto.
  - destruct X as [X|[_ X]]; [contradiction|]. destruct (X _ _ _ H).
Qed.
Lemma lexeme_unique flow first indent t k lb r k' lb' r' : lexeme flow first indent t k lb r -> lexeme flow first indent t k' lb' r' -> k = k' /\ lb = lb' /\ r = r'.
Proof.
  rewrite !lexeme_kind. pose proof (kind_facts flow first t) as K. destruct (kind flow first t); cbn [lex_of]; intros H H'; try contradiction;
    try (destruct H as (-> & E1 & ->), H' as (-> & E2 & ->); rewrite E1 in E2; split; [reflexivity|]; split; [reflexivity|]; congruence).
  - destruct H as (-> & t1 & E1 & r1 & D1 & L1), H' as (-> & t2 & E2 & r2 & D2 & L2). rewrite E1 in E2. injection E2 as <-.
    destruct (directive_unique _ _ _ _ _ D1 D2) as [-> <-]. split; [reflexivity|]. split; [reflexivity|]. exact (line_end_unique _ _ _ L1 L2).
  - destruct H as (-> & t1 & E1 & s1 & -> & A1), H' as (-> & t2 & E2 & s2 & -> & A2). rewrite E1 in E2. injection E2 as <-. destruct (anchor_unique _ _ _ _ _ A1 A2) as [-> <-]. auto.
  - destruct H as (-> & t1 & E1 & s1 & -> & A1), H' as (-> & t2 & E2 & s2 & -> & A2). rewrite E1 in E2. injection E2 as <-. destruct (anchor_unique _ _ _ _ _ A1 A2) as [-> <-]. auto.
  - destruct H as (-> & t1 & E1 & h1 & s1 & -> & A1), H' as (-> & t2 & E2 & h2 & s2 & -> & A2). rewrite E1 in E2. injection E2 as <-. destruct (tag_unique _ _ _ _ _ _ _ _ A1 A2) as (-> & -> & <-). auto.
  - destruct H as (-> & t1 & E1 & s1 & -> & A1), H' as (-> & t2 & E2 & s2 & -> & A2). rewrite E1 in E2. injection E2 as <-. destruct (block_unique _ _ _ _ _ _ _ A1 A2) as [-> <-]. auto.
  - destruct H as (-> & t1 & E1 & s1 & -> & A1), H' as (-> & t2 & E2 & s2 & -> & A2). rewrite E1 in E2. injection E2 as <-. destruct (block_unique _ _ _ _ _ _ _ A1 A2) as [-> <-]. auto.
  - destruct H as (-> & t1 & E1 & s1 & -> & A1), H' as (-> & t2 & E2 & s2 & -> & A2). rewrite E1 in E2. injection E2 as <-. destruct (quoted_unique _ _ _ _ _ _ A1 A2) as [-> <-]. auto.
  - destruct H as (-> & t1 & E1 & s1 & -> & A1), H' as (-> & t2 & E2 & s2 & -> & A2). rewrite E1 in E2. injection E2 as <-. destruct (quoted_unique _ _ _ _ _ _ A1 A2) as [-> <-]. auto.
  - destruct H as (v1 & -> & A1), H' as (v2 & -> & A2). destruct K as (O & _). destruct (plain_unique _ _ _ _ _ _ _ _ _ O A1 A2) as (-> & -> & ->). auto.
Qed.

Section S.
Variable T : list N.
Record place_in := mkPlace { p_flow : N; p_blocks : list Z; p_key : bool; p_keys : list (option mark); p_rest : list N }.
Definition one (S S' : place_in) (k : tok) : Prop := exists t' key1 lb r,
  passed T (p_flow S) (p_key S) (p_rest S) t' key1 /\ lexeme_at T (p_flow S) (p_blocks S) t' k lb r /\
  let f := negb (p_flow S =? 0) in let m := place T t' in
  permitted f key1 m (p_keys S) k /\
  S' = mkPlace (flow_next (p_flow S) k) (blocks_next f m (p_keys S) (inside T (p_flow S) (p_blocks S) t') k) (key_next f m (p_keys S) k lb) (keys_next f key1 m (p_keys S) k) r.
Lemma one_unique S S1 k1 S2 k2 : one S S1 k1 -> one S S2 k2 -> k1 = k2 /\ S1 = S2.
Proof.
  intros (t1 & y1 & lb1 & r1 & P1 & L1 & _ & ->) (t2 & y2 & lb2 & r2 & P2 & L2 & _ & ->). destruct (gap_unique _ _ _ _ _ _ P1 _ _ P2) as [<- <-].
  destruct (lexeme_unique _ _ _ _ _ _ _ _ _ _ L1 L2) as (<- & <- & <-). auto.
Qed.
Inductive runs : place_in -> list tok -> place_in -> Prop :=
| runs_none S : runs S [] S
| runs_one S k S1 l S2 : one S S1 k -> runs S1 l S2 -> runs S (k :: l) S2.
Lemma runs_snoc S l S1 k S2 : runs S l S1 -> one S1 S2 k -> runs S (l ++ [k]) S2.
Proof. induction 1 as [S|S k0 S1 l S3 H1 H2 IH]; intros H; [eapply runs_one; [exact H|apply runs_none]|]. cbn [app]. eapply runs_one; eauto. Qed.
Definition from := mkPlace 0 [(-1)%Z] true [None] T.
Lemma reads_runs f b k ks t l : reads T f b k ks t l -> runs from l (mkPlace f b k ks t).
Proof.
  induction 1 as [|flow blocks key keys t l t' key1 k lb r R IH P L f m Pm]; [apply runs_none|]. eapply runs_snoc; [exact IH|].
  exists t', key1, lb, r. auto.
Qed.
Lemma runs_either S l1 S1 : runs S l1 S1 -> forall l2 S2, runs S l2 S2 ->
  (l1 = l2 /\ S1 = S2) \/ (exists k S', one S1 S' k /\ exists m, l2 = l1 ++ k :: m) \/ (exists k S', one S2 S' k /\ exists m, l1 = l2 ++ k :: m).
Proof.
  induction 1 as [S|S k S1 l1 S2 H1 H2 IH]; intros l2 S3 R.
  - destruct R as [S|S k S1 l2 S3 R1 R2]; [left; auto|]. right. left. exists k, S1. split; [exact R1|]. exists l2. reflexivity.
  - destruct R as [S|S k' S1' l2 S3 R1 R2]; [right; right; exists k, S1; split; [exact H1|]; exists l1; reflexivity|].
    destruct (one_unique _ _ _ _ _ H1 R1) as [<- <-]. destruct (IH _ _ R2) as [[-> ->]|[(y & S' & O & m & ->)|(y & S' & O & m & ->)]].
    + left. auto.
    + right. left. exists y, S'. split; [exact O|]. exists m. reflexivity.
    + right. right. exists y, S'. split; [exact O|]. exists m. reflexivity.
Qed.
Lemma end_no_one S S' k t' key1 : passed T (p_flow S) (p_key S) (p_rest S) t' key1 -> head t' = 0 -> ~ one S S' k.
Proof.
  intros P Z (t1 & y1 & lb1 & r1 & P1 & L1 & _). destruct (gap_unique _ _ _ _ _ _ P _ _ P1) as [<- <-]. unfold lexeme_at in L1. apply lexeme_kind in L1.
  unfold kind in L1. rewrite Z in L1. exact L1.
Qed.
Lemma all_unique l l' : reads_all T l -> reads_all T l' -> l = l'.
Proof.
  intros (f & b & k & ks & t & t1 & k1 & R & P & Z) (f' & b' & k' & ks' & t' & t1' & k1' & R' & P' & Z'). apply reads_runs in R, R'.
  destruct (runs_either _ _ _ R _ _ R') as [[E _]|[(y & S' & O & _)|(y & S' & O & _)]]; [exact E|exfalso..].
  - exact (end_no_one (mkPlace f b k ks t) _ _ _ _ P Z O).
  - exact (end_no_one (mkPlace f' b' k' ks' t') _ _ _ _ P' Z' O).
Qed.
Lemma until_no_one S S' k t' key1 : passed T (p_flow S) (p_key S) (p_rest S) t' key1 ->
  (forall k lb r, ~ (lexeme_at T (p_flow S) (p_blocks S) t' k lb r /\ permitted (negb (p_flow S =? 0)) key1 (place T t') (p_keys S) k)) -> ~ one S S' k.
Proof.
  intros P Z (t1 & y1 & lb1 & r1 & P1 & L1 & Pm & _). destruct (gap_unique _ _ _ _ _ _ P _ _ P1) as [<- <-]. exact (Z _ _ _ (conj L1 Pm)).
Qed.
Lemma until_not_all l l' : reads_until T l -> ~ reads_all T l'.
Proof.
  intros (f & b & k & ks & t & t1 & k1 & R & P & Nz & Z) (f' & b' & k' & ks' & t' & t1' & k1' & R' & P' & Z'). apply reads_runs in R, R'.
  destruct (runs_either _ _ _ R _ _ R') as [[_ E]|[(y & S' & O & _)|(y & S' & O & _)]].
  - injection E as <- <- <- <- <-. destruct (gap_unique _ _ _ _ _ _ P _ _ P') as [<- _]. exact (Nz Z').
  - exact (until_no_one (mkPlace f b k ks t) _ _ _ _ P Z O).
  - exact (end_no_one (mkPlace f' b' k' ks' t') _ _ _ _ P' Z' O).
Qed.
Lemma until_unique l l' : reads_until T l -> reads_until T l' -> l = l'.
Proof.
  intros (f & b & k & ks & t & t1 & k1 & R & P & _ & Z) (f' & b' & k' & ks' & t' & t1' & k1' & R' & P' & _ & Z'). apply reads_runs in R, R'.
  destruct (runs_either _ _ _ R _ _ R') as [[E _]|[(y & S' & O & _)|(y & S' & O & _)]]; [exact E|exfalso..].
  - exact (until_no_one (mkPlace f b k ks t) _ _ _ _ P Z O).
  - exact (until_no_one (mkPlace f' b' k' ks' t') _ _ _ _ P' Z' O).
Qed.

Lemma lexemes_ended e nest bad plan l s s' : scans (init_scanner e nest T bad plan) l s -> scan s = ScanNothing s' -> forall k, reads_all T k <-> k = words l.
Proof.
  intros H E. pose proof (scan_step_lex T e _ _ (scans_lex T _ _ _ _ _ _ H)) as K. rewrite E, words_undeep in K. intros k. split; [intros A; exact (all_unique _ _ A K)|intros ->; exact K].
Qed.
Lemma lexemes_failed e nest bad plan l s s' er : scans (init_scanner e nest T bad plan) l s -> scan s = ScanFail s' -> s_error s' = Some er ->
  structural (se_problem er) \/ (exists more, reads_until T (words l ++ more)) /\ forall k, ~ reads_all T k.
Proof.
  intros H E Er. pose proof (scan_step_lex T e _ _ (scans_lex T _ _ _ _ _ _ H)) as K. rewrite E in K. destruct K as (er' & -> & K). cbn [s_error set_error] in Er. injection Er as ->.
  destruct K as [K|[more K]]; [left; exact K|right]. rewrite words_undeep in K. split; [exists more; exact K|]. intros k. exact (until_not_all _ _ K).
Qed.
Lemma lexemes_prefix e nest bad plan l s k : scans (init_scanner e nest T bad plan) l s -> reads_all T k -> exists more, k = words l ++ more.
Proof.
  intros H (f & b & y & ks & t & t1 & k1 & R & P & Z). destruct (live_reads _ _ _ _ (scans_lex T _ _ _ _ _ _ H)) as (more & f' & b' & y' & ks' & t' & R'). rewrite words_undeep in R'.
  apply reads_runs in R, R'. destruct (runs_either _ _ _ R _ _ R') as [[-> _]|[(z & S' & O & _)|(z & S' & _ & m & ->)]].
  - exists more. reflexivity.
  - exfalso. exact (end_no_one (mkPlace f b y ks t) _ _ _ _ P Z O).
  - exists (more ++ z :: m). rewrite <- app_assoc. reflexivity.
Qed.
End S.

(* --- reader errors are about ill-formed input --- *)
#[local] Hint Resolve calm_scan_flow_scalar calm_plain_scalar calm_block_scalar calm_line_end : ca.
Lemma calm_anchor b : calm (scan_anchor b). Proof. unfold scan_anchor. ca. Qed.
Lemma calm_tag_handle d m : calm (scan_tag_handle d m). Proof. unfold scan_tag_handle. ca. Qed.
Lemma calm_uri_escapes m s : calm (scan_uri_escapes m s). Proof. unfold scan_uri_escapes. ca. Qed.
#[local] Hint Resolve calm_tag_handle calm_uri_escapes : ca.
Lemma calm_tag_uri u h m : calm (scan_tag_uri u h m). Proof. unfold scan_tag_uri. ca. Qed.
#[local] Hint Resolve calm_tag_uri : ca.
Lemma calm_tag f : calm (scan_tag f). Proof. unfold scan_tag. ca. Qed.
Lemma calm_directive_name m : calm (scan_directive_name m). Proof. unfold scan_directive_name. ca. Qed.
Lemma calm_version_number m : calm (scan_version_number m). Proof. unfold scan_version_number. ca. Qed.
#[local] Hint Resolve calm_directive_name calm_version_number : ca.
Lemma calm_version_value m : calm (scan_version_value m). Proof. unfold scan_version_value. ca. Qed.
Lemma calm_tag_directive_value m : calm (scan_tag_directive_value m). Proof. unfold scan_tag_directive_value. ca. Qed.
Lemma calm_directive_end m : calm (scan_line_end m SDirectiveEnd). Proof. apply calm_line_end. discriminate. Qed.
#[local] Hint Resolve calm_version_value calm_tag_directive_value calm_directive_end : ca.
Lemma calm_directive : calm scan_directive. Proof. unfold scan_directive. ca. Qed.
Lemma calm_to_next f k : calm (scan_to_next_token f k). Proof. unfold scan_to_next_token. ca. Qed.
Lemma calm_choose f : calm (choose f). Proof. unfold choose, plain_start. ca. Qed.
Lemma calm_force : calm force_line. Proof. intros c H. unfold force_line. destruct (_ =? _); exact H. Qed.

Definition scalm {A} (m : sm A) : Prop := forall s, c_bad (s_cur s) = false ->
  match m s with SOk _ s' => c_bad (s_cur s') = false | SErr e => se_problem e <> SReader | SBad | SFuel => True end.
Lemma scalm_ret {A} (a : A) : scalm (sret a). Proof. intros s H. exact H. Qed.
Lemma scalm_bind {A B} (m : sm A) (k : A -> sm B) : scalm m -> (forall a, scalm (k a)) -> scalm (sbind m k).
Proof. intros H K s B0. unfold sbind. specialize (H s B0). destruct (m s) as [a s'|e| |]; auto. exact (K a s' H). Qed.
Lemma scalm_lift {A} (m : cm A) : calm m -> scalm (lift m).
Proof. intros H s B0. unfold lift. specialize (H _ B0). destruct (m (s_cur s)); auto. Qed.
Lemma scalm_get : scalm get. Proof. intros s H. exact H. Qed.
Lemma scalm_bad {A} : scalm (fun _ : sc => @SBad A). Proof. intros s H. exact I. Qed.
Lemma scalm_error {A} ctx p : p <> SReader -> scalm (@serror A ctx p). Proof. intros H s _. exact H. Qed.
Lemma scalm_modify f : (forall s, s_cur (f s) = s_cur s) -> scalm (modify f). Proof. intros H s B0. unfold modify. rewrite H. exact B0. Qed.
Lemma scalm_allow b : scalm (allow b). Proof. apply scalm_modify. reflexivity. Qed.
Lemma scalm_enqueue t : scalm (enqueue t). Proof. apply scalm_modify. reflexivity. Qed.
Lemma scalm_insert n t : scalm (queue_insert n t). Proof. intros s H. unfold queue_insert. destruct (_ && _); [exact H|exact I]. Qed.
Lemma scalm_remove : scalm remove_simple_key.
Proof. intros s H. unfold remove_simple_key. destruct (s_keys s); [exact I|]. destruct (_ && _); [discriminate|exact H]. Qed.
Lemma scalm_stale : scalm stale_simple_keys. Proof. intros s H. unfold stale_simple_keys. destruct (stale _ _); [exact H|discriminate]. Qed.
Lemma scalm_decrease : scalm decrease_flow_level. Proof. intros s H. unfold decrease_flow_level. destruct (_ =? _); [exact H|]. destruct (s_keys s); [exact I|exact H]. Qed.
Lemma scalm_unroll c : scalm (unroll_indent c). Proof. intros s H. unfold unroll_indent. destruct (in_flow s); [exact H|]. destruct (unroll _ _ _ _ _) as [[[? ?] ?]|]; [exact H|exact I]. Qed.
Create HintDb sca discriminated.
#[local] Hint Resolve scalm_ret scalm_get scalm_bad scalm_allow scalm_enqueue scalm_insert scalm_remove scalm_stale scalm_decrease scalm_unroll : sca.
#[local] Hint Resolve calm_anchor calm_tag calm_directive calm_to_next calm_choose calm_force calm_scan_flow_scalar calm_plain_scalar calm_block_scalar calm_cache calm_skip_n : ca.
Ltac sca :=
  repeat (intros; match goal with
  | |- scalm (sbind _ _) => apply scalm_bind
  | |- scalm (lift _) => apply scalm_lift; solve [auto with ca]
  | |- scalm (serror _ _) => apply scalm_error; first [assumption|discriminate]
  | |- scalm (modify _) => apply scalm_modify; intros; reflexivity
  | |- scalm (if ?b then _ else _) => destruct b
  | |- scalm (match ?x with _ => _ end) => destruct x
  | |- _ => solve [auto with sca]
  end).
Lemma scalm_save : scalm save_simple_key. Proof. unfold save_simple_key. cbv zeta. sca. Qed.
Lemma scalm_increase : scalm increase_flow_level. Proof. unfold increase_flow_level. sca. Qed.
Lemma scalm_roll c n t m : scalm (roll_indent c n t m). Proof. unfold roll_indent. sca. Qed.
Lemma scalm_reset : scalm reset_block. Proof. unfold reset_block. sca. Qed.
Lemma scalm_chars n t : scalm (fetch_chars n t). Proof. unfold fetch_chars. sca. Qed.
#[local] Hint Resolve scalm_save scalm_increase scalm_roll scalm_reset scalm_chars : sca.
Lemma scalm_block_start p t : p <> SReader -> scalm (block_start p t). Proof. intros. unfold block_start. sca. Qed.
Lemma scalm_branch b : scalm (fetch_branch b).
Proof.
  assert (B1 := scalm_block_start SBlockEntry TBlockSeqStart ltac:(discriminate)). assert (B2 := scalm_block_start SMapKey TBlockMapStart ltac:(discriminate)). assert (B3 := scalm_block_start SMapValue TBlockMapStart ltac:(discriminate)).
  destruct b; cbn [fetch_branch]; unfold fetch_stream_end, fetch_directive, fetch_document_indicator, fetch_flow_collection_start, fetch_flow_collection_end, fetch_flow_entry, fetch_block_entry, fetch_key, fetch_value, fetch_anchor, fetch_tag, fetch_block_scalar, fetch_flow_scalar, fetch_plain_scalar; sca.
  intros s _. discriminate.
Qed.
#[local] Hint Resolve scalm_branch : sca.
Lemma scalm_next : scalm fetch_next_token. Proof. unfold fetch_next_token, fetch_stream_start. sca. Qed.
#[local] Hint Resolve scalm_next : sca.
Lemma scalm_more n : scalm (fetch_more_n n).
Proof.
  induction n as [|n IH]; [intros s H; exact I|]. intros s H. cbn [fetch_more_n]. match goal with |- match ?m s with _ => _ end => assert (K : scalm m) end.
  { sca; assumption. }
  exact (K s H).
Qed.
Lemma reader_bad e nest T plan l s s' er : scans (init_scanner e nest T false plan) l s -> scan s = ScanFail s' -> s_error s' = Some er -> se_problem er <> SReader.
Proof.
  intros H E Er. assert (B0 : c_bad (s_cur s) = false).
  { assert (G : forall s0 l s, scans s0 l s -> c_bad (s_cur s0) = false -> c_bad (s_cur s) = false).
    { clear. induction 1 as [s|s t s1 l s2 H1 H2 IH]; intros B0; [exact B0|]. apply IH. unfold scan in H1. destruct (_ || _); [discriminate|].
      destruct (s_avail s).
      - destruct (s_tokens s); [discriminate|]. injection H1 as _ <-. exact B0.
      - pose proof (scalm_more (length (c_text (s_cur s)) + 3) s B0) as K. unfold fetch_more_tokens in H1. destruct (fetch_more_n _ s) as [u s'|e| |]; try discriminate.
        destruct (s_tokens s'); [discriminate|]. injection H1 as _ <-. exact K. }
    exact (G _ _ _ H eq_refl). }
  unfold scan in E. destruct (_ || _); [discriminate|]. destruct (s_avail s); [destruct (s_tokens s); discriminate|].
  pose proof (scalm_more (length (c_text (s_cur s)) + 3) s B0) as K. unfold fetch_more_tokens in E. destruct (fetch_more_n _ s) as [u s1|e1| |]; try discriminate.
  - destruct (s_tokens s1); discriminate.
  - injection E as <-. cbn [s_error set_error] in Er. injection Er as <-. exact K.
Qed.
Theorem tokens_of_text e nest T bad plan : exists l o, scan_all (4 * length T + 4) (init_scanner e nest T bad plan) = (l, o) /\
  match o with
  | Ended => forall k, reads_all T k <-> k = words l
  | Failed er => se_problem er = SReader /\ bad = true \/ se_problem er = SLimit \/ se_problem er = SNoColon \/
      (exists more, reads_until T (words l ++ more)) /\ forall k, ~ reads_all T k
  | Unfinished | Undefined => False
  end.
Proof.
  destruct (scan_all_live T e (4 * length T + 4) [] (init_scanner e nest T bad plan)) as (l & o & s' & H & Sc & D).
  - eapply lv_init; reflexivity.
  - cbn. lia.
  - exists l, o. split; [exact H|]. destruct D as [(-> & E & _)|(er & s2 & -> & E & Er)].
    + exact (lexemes_ended _ _ _ _ _ _ _ _ Sc E).
    + destruct (lexemes_failed _ _ _ _ _ _ _ _ _ Sc E Er) as [S0|S0]; [|auto]. unfold structural in S0. cbn [In] in S0. destruct S0 as [S0|[S0|[S0|[]]]]; auto.
      left. split; [auto|]. destruct bad; [reflexivity|]. destruct (reader_bad _ _ _ _ _ _ _ _ Sc E Er). auto.
Qed.
