(* What the scanner does depends on the text only, not on how much of it happens to
   be in the buffer. *)
From Verif Require Import Base ReaderModel Utf8Spec CharSpec Types CursorModel ScanModel ScannerModel ScannerSpec ScannerFinal.

(* the same cursor with everything in the buffer *)
Definition full (c : cur) : cur := mkCur (c_text c) (S (length (c_text c))) [] false (c_mark c).
Definition wfc (c : cur) : Prop := c_bad c = false /\ (c_unread c <= S (length (c_text c)))%nat.
Definition free {A} (m : cm A) : Prop := forall c, wfc c ->
  match m c with
  | COk a c' => m (full c) = COk a (full c') /\ wfc c'
  | CErr e => m (full c) = CErr e
  | CFuel => m (full c) = CFuel
  | CBad => True
  end.

Lemma full_wfc c : wfc (full c).
Proof. split; cbn; auto. Qed.
Lemma full_full c : full (full c) = full c.
Proof. reflexivity. Qed.
Lemma free_ret {A} (a : A) : free (ret a).
Proof. intros c W. cbn. auto. Qed.
Lemma free_bind {A B} (m : cm A) (k : A -> cm B) : free m -> (forall a, free (k a)) -> free (bind m k).
Proof.
  intros H K c W. unfold bind. specialize (H c W). destruct (m c) as [a c'|e| |]; auto.
  - destruct H as [-> W']. exact (K a c' W').
  - rewrite H. reflexivity.
  - rewrite H. reflexivity.
Qed.
Lemma free_err {A} ctx p : free (@err A ctx p).
Proof. intros c W. reflexivity. Qed.
Lemma free_ub {A} : free (@ub A).
Proof. intros c W. exact I. Qed.
Lemma free_mark : free get_mark.
Proof. intros c W. cbn. auto. Qed.
Lemma free_column : free column.
Proof. intros c W. cbn. auto. Qed.
Lemma cache_full n t m : cache n (mkCur t (S (length t)) [] false m) = COk tt (mkCur t (S (length t)) [] false m).
Proof.
  unfold cache. cbn [c_unread c_plan c_bad c_text c_mark hd tl andb]. destruct (n <=? S (length t))%nat eqn:E; [reflexivity|].
  apply Nat.leb_gt in E. rewrite Nat.add_0_r, Nat.min_r by lia. reflexivity.
Qed.
Lemma free_cache n : free (cache n).
Proof.
  intros c [B W]. unfold full at 1. unfold cache at 1. destruct (n <=? c_unread c)%nat eqn:E; [split; [apply cache_full|split; assumption]|].
  rewrite B. cbn [andb]. split; [apply cache_full|]. split; [reflexivity|]. cbn [c_unread c_text]. lia.
Qed.
Lemma free_peek k : free (peek k).
Proof.
  intros c [B W]. unfold peek. cbn [full c_text c_unread]. destruct (k <? c_unread c)%nat eqn:E; cbn [andb]; [|exact I].
  apply Nat.ltb_lt in E. replace (k <? S (length (c_text c)))%nat with true by (symmetry; apply Nat.ltb_lt; lia). cbn [andb].
  destruct (forallb is_ascii (firstn k (c_text c))); [|exact I]. split; [reflexivity|split; assumption].
Qed.
Lemma free_skip : free skip.
Proof.
  intros c [B W]. unfold skip. cbn [full c_text c_unread c_plan c_bad c_mark]. destruct (c_text c) as [|x r] eqn:E; [exact I|].
  destruct (c_unread c) as [|u]; [exact I|]. cbn [length] in *. split; [reflexivity|]. split; [exact B|]. cbn. lia.
Qed.
Lemma free_drop_line k : free (drop_line k).
Proof.
  intros c [B W]. unfold drop_line. cbn [full c_text c_unread c_plan c_bad c_mark].
  destruct (k <=? c_unread c)%nat eqn:E1; [|exact I]. destruct (k <=? length (c_text c))%nat eqn:E2; [|exact I]. cbn [andb].
  apply Nat.leb_le in E1, E2. replace (k <=? S (length (c_text c)))%nat with true by (symmetry; apply Nat.leb_le; lia). cbn [andb].
  split; [|split; [exact B|]].
  - unfold full. cbn [c_text c_mark]. rewrite skipn_length. replace (S (length (c_text c) - k)) with (S (length (c_text c)) - k)%nat by lia. reflexivity.
  - cbn [c_unread c_text]. rewrite skipn_length. lia.
Qed.
Lemma free_force_line : free force_line.
Proof.
  intros c W. unfold force_line. cbn [full c_mark]. destruct (m_column (c_mark c) =? 0); (split; [reflexivity|]); [exact W|]. exact W.
Qed.
Lemma free_loop_n {A B} (body : A -> cm (A + B)) : (forall a, free (body a)) -> forall n a, free (loop_n n body a).
Proof.
  intros H. induction n as [|n IH]; intros a c W; [reflexivity|]. cbn [loop_n]. pose proof (H a c W) as K.
  destruct (body a c) as [[a'|b] c'|e| |]; auto.
  - destruct K as [-> W']. exact (IH a' c' W').
  - destruct K as [-> W']. auto.
  - rewrite K. reflexivity.
  - rewrite K. reflexivity.
Qed.
Lemma free_loop {A B} (body : A -> cm (A + B)) a : (forall a, free (body a)) -> free (loop body a).
Proof. intros H c W. exact (free_loop_n body H (S (length (c_text c))) a c W). Qed.
Lemma free_andc a b : free a -> free b -> free (andc a b).
Proof. intros Ha Hb. apply free_bind; [exact Ha|]. intros []; [exact Hb|apply free_ret]. Qed.
Lemma free_orc a b : free a -> free b -> free (orc a b).
Proof. intros Ha Hb. apply free_bind; [exact Ha|]. intros []; [apply free_ret|exact Hb]. Qed.
Lemma free_check k p : free (check k p).
Proof. apply free_bind; [apply free_peek|]. intros; apply free_ret. Qed.

Create HintDb fr discriminated.
#[export] Hint Resolve free_ret free_err free_ub free_mark free_column free_cache free_peek free_skip free_drop_line free_force_line free_check : fr.
Ltac fr :=
  repeat (intros; match goal with
  | |- free (bind _ _) => apply free_bind
  | |- free (andc _ _) => apply free_andc
  | |- free (orc _ _) => apply free_orc
  | |- free (loop _ _) => apply free_loop
  | |- free (if ?b then _ else _) => destruct b
  | |- free (match ?x with _ => _ end) => destruct x
  | |- free (let '(_, _) := ?x in _) => destruct x
  | |- _ => solve [auto with fr]
  end).
Lemma free_is_crlf : free is_crlf. Proof. unfold is_crlf. fr. Qed.
#[export] Hint Resolve free_is_crlf : fr.
Lemma free_skip_line : free skip_line. Proof. unfold skip_line. fr. Qed.
Lemma free_read s : free (read s). Proof. unfold read. fr. Qed.
Lemma free_read_line s : free (read_line s). Proof. unfold read_line. fr. Qed.
Lemma free_put s bs : free (put s bs). Proof. unfold put. fr. Qed.
#[export] Hint Resolve free_skip_line free_read free_read_line free_put : fr.
Lemma free_skip_while p : free (skip_while p). Proof. unfold skip_while. fr. Qed.
Lemma free_read_while p s : free (read_while p s). Proof. unfold read_while. fr. Qed.
#[export] Hint Resolve free_skip_while free_read_while : fr.
Lemma free_scan_to_next_token f a : free (scan_to_next_token f a). Proof. unfold scan_to_next_token. fr. Qed.
Lemma free_scan_line_end s p : free (scan_line_end s p). Proof. unfold scan_line_end. fr. Qed.
Lemma free_scan_directive_name s : free (scan_directive_name s). Proof. unfold scan_directive_name. fr. Qed.
Lemma free_scan_version_number s : free (scan_version_number s). Proof. unfold scan_version_number. fr. Qed.
#[export] Hint Resolve free_scan_to_next_token free_scan_line_end free_scan_directive_name free_scan_version_number : fr.
Lemma free_scan_version_value s : free (scan_version_value s). Proof. unfold scan_version_value. fr. Qed.
Lemma free_scan_tag_handle d s : free (scan_tag_handle d s). Proof. unfold scan_tag_handle. fr. Qed.
Lemma free_scan_uri_escapes s x : free (scan_uri_escapes s x). Proof. unfold scan_uri_escapes. fr. Qed.
#[export] Hint Resolve free_scan_version_value free_scan_tag_handle free_scan_uri_escapes : fr.
Lemma free_scan_tag_uri u h s : free (scan_tag_uri u h s). Proof. unfold scan_tag_uri. fr. Qed.
#[export] Hint Resolve free_scan_tag_uri : fr.
Lemma free_scan_tag_directive_value s : free (scan_tag_directive_value s). Proof. unfold scan_tag_directive_value. fr. Qed.
#[export] Hint Resolve free_scan_tag_directive_value : fr.
Lemma free_scan_directive : free scan_directive. Proof. unfold scan_directive. fr. Qed.
Lemma free_scan_anchor a : free (scan_anchor a). Proof. unfold scan_anchor. fr. Qed.
Lemma free_scan_tag f : free (scan_tag f). Proof. unfold scan_tag. fr. Qed.
Lemma free_scan_block_scalar_breaks p i b s : free (scan_block_scalar_breaks p i b s). Proof. unfold scan_block_scalar_breaks. fr. Qed.
Lemma free_scan_block_header s : free (scan_block_header s). Proof. unfold scan_block_header. fr. Qed.
#[export] Hint Resolve free_scan_directive free_scan_anchor free_scan_tag free_scan_block_scalar_breaks free_scan_block_header : fr.
Lemma free_scan_block_scalar p l : free (scan_block_scalar p l). Proof. unfold scan_block_scalar. fr. Qed.
Lemma free_triple x : free (triple x). Proof. unfold triple. fr. Qed.
#[export] Hint Resolve free_scan_block_scalar free_triple : fr.
Lemma free_document_indicator : free document_indicator. Proof. unfold document_indicator. fr. Qed.
Lemma free_scan_hex n : forall k s v, free (scan_hex n k s v). Proof. induction n; intros; cbn [scan_hex]; fr. Qed.
Lemma free_skip_n n : free (skip_n n). Proof. induction n; cbn [skip_n]; fr. Qed.
#[export] Hint Resolve free_document_indicator free_scan_hex free_skip_n : fr.
Lemma free_scan_escape s x : free (scan_escape s x). Proof. unfold scan_escape. fr. Qed.
#[export] Hint Resolve free_scan_escape : fr.
Lemma free_scan_quoted_word b s x : free (scan_quoted_word b s x). Proof. unfold scan_quoted_word. fr. Qed.
Lemma free_scan_quoted_blanks b : free (scan_quoted_blanks b). Proof. unfold scan_quoted_blanks. fr. Qed.
Lemma free_fold_breaks s l t : free (fold_breaks s l t). Proof. unfold fold_breaks. fr. Qed.
#[export] Hint Resolve free_scan_quoted_word free_scan_quoted_blanks free_fold_breaks : fr.
Lemma free_scan_flow_scalar b : free (scan_flow_scalar b). Proof. unfold scan_flow_scalar. fr. Qed.
Lemma free_scan_plain_word f s x : free (scan_plain_word f s x). Proof. unfold scan_plain_word. fr. Qed.
Lemma free_scan_plain_blanks i s b : free (scan_plain_blanks i s b). Proof. unfold scan_plain_blanks. fr. Qed.
#[export] Hint Resolve free_scan_flow_scalar free_scan_plain_word free_scan_plain_blanks : fr.
Lemma free_scan_plain_scalar f i : free (scan_plain_scalar f i). Proof. unfold scan_plain_scalar. fr. Qed.
Lemma free_plain_start f : free (plain_start f). Proof. unfold plain_start. fr. Qed.
#[export] Hint Resolve free_scan_plain_scalar free_plain_start : fr.
Lemma free_choose f : free (choose f). Proof. unfold choose. fr. Qed.
#[export] Hint Resolve free_choose : fr.

(* --- the token fetchers --- *)
Definition fulls (s : sc) : sc := set_cur s (full (s_cur s)).
Definition sfree {A} (m : sm A) : Prop := forall s, wfc (s_cur s) ->
  match m s with
  | SOk a s' => m (fulls s) = SOk a (fulls s') /\ wfc (s_cur s')
  | SErr e => m (fulls s) = SErr e
  | SFuel => m (fulls s) = SFuel
  | SBad => True
  end.
Lemma sfree_bind {A B} (m : sm A) (k : A -> sm B) : sfree m -> (forall a, sfree (k a)) -> sfree (sbind m k).
Proof.
  intros H K s W. unfold sbind. specialize (H s W). destruct (m s) as [a s'|e| |]; auto.
  - destruct H as [-> W']. exact (K a s' W').
  - rewrite H. reflexivity.
  - rewrite H. reflexivity.
Qed.
(* a continuation that looks at the state, but not at the buffer *)
Lemma sfree_get {B} (k : sc -> sm B) : (forall s, k (fulls s) = k s) -> (forall s, sfree (k s)) -> sfree (sbind get k).
Proof. intros E K s W. unfold sbind, get. rewrite E. exact (K s s W). Qed.
Lemma sfree_modify f : (forall s, f (fulls s) = fulls (f s)) -> (forall s, s_cur (f s) = s_cur s) -> sfree (modify f).
Proof. intros E C s W. unfold modify. rewrite E. split; [reflexivity|]. rewrite C. exact W. Qed.
Lemma sfree_ret {A} (a : A) : sfree (sret a).
Proof. intros s W. split; [reflexivity|exact W]. Qed.
Lemma sfree_error {A} ctx p : sfree (@serror A ctx p).
Proof. intros s W. reflexivity. Qed.
Lemma sfree_lift {A} (m : cm A) : free m -> sfree (lift m).
Proof.
  intros H s W. unfold lift. cbn [fulls set_cur s_cur]. specialize (H _ W). destruct (m (s_cur s)) as [a c'|e| |]; auto.
  - destruct H as [-> W']. split; [reflexivity|exact W'].
  - rewrite H. reflexivity.
  - rewrite H. reflexivity.
Qed.
Lemma sfree_allow b : sfree (allow b).
Proof. apply sfree_modify; reflexivity. Qed.
Lemma sfree_enqueue t : sfree (enqueue t).
Proof. apply sfree_modify; reflexivity. Qed.
Lemma sfree_insert n t : sfree (queue_insert n t).
Proof. intros s W. unfold queue_insert. cbn [fulls set_cur s_parsed s_tokens]. destruct (_ && _); [|exact I]. split; [reflexivity|exact W]. Qed.
Lemma sfree_stale : sfree stale_simple_keys.
Proof. intros s W. unfold stale_simple_keys. change (smark (fulls s)) with (smark s). change (s_keys (fulls s)) with (s_keys s). destruct (stale _ _); [split; [reflexivity|exact W]|reflexivity]. Qed.
Lemma sfree_remove : sfree remove_simple_key.
Proof.
  intros s W. unfold remove_simple_key. change (smark (fulls s)) with (smark s). change (s_keys (fulls s)) with (s_keys s).
  destruct (s_keys s) as [|k ks]; [exact I|]. destruct (_ && _); [reflexivity|split; [reflexivity|exact W]].
Qed.
Create HintDb sfr discriminated.
#[export] Hint Resolve sfree_ret sfree_error sfree_allow sfree_enqueue sfree_insert sfree_stale sfree_remove : sfr.
Ltac sfr :=
  repeat (intros; match goal with
  | |- sfree (sbind get _) => apply sfree_get; [reflexivity|]
  | |- sfree (sbind _ _) => apply sfree_bind
  | |- sfree (modify _) => apply sfree_modify; reflexivity
  | |- sfree (lift _) => apply sfree_lift; solve [auto with fr]
  | |- sfree (if ?b then _ else _) => destruct b
  | |- sfree (match ?x with _ => _ end) => destruct x
  | |- _ => solve [auto with sfr]
  end).
Lemma sfree_save : sfree save_simple_key. Proof. unfold save_simple_key. sfr. Qed.
Lemma sfree_increase : sfree increase_flow_level. Proof. unfold increase_flow_level. sfr. Qed.
Lemma sfree_decrease : sfree decrease_flow_level.
Proof.
  intros s W. unfold decrease_flow_level. change (s_flow (fulls s)) with (s_flow s). change (s_keys (fulls s)) with (s_keys s).
  destruct (s_flow s =? 0); [split; [reflexivity|exact W]|]. destruct (s_keys s); [exact I|]. split; [reflexivity|exact W].
Qed.
Lemma sfree_roll c n t m : sfree (roll_indent c n t m). Proof. unfold roll_indent. sfr. Qed.
Lemma sfree_unroll c : sfree (unroll_indent c).
Proof.
  intros s W. unfold unroll_indent. change (in_flow (fulls s)) with (in_flow s). change (smark (fulls s)) with (smark s).
  change (s_indent (fulls s)) with (s_indent s). change (s_indents (fulls s)) with (s_indents s). change (s_tokens (fulls s)) with (s_tokens s).
  destruct (in_flow s); [split; [reflexivity|exact W]|]. destruct (unroll _ _ _ _ _) as [[[i is] q]|]; [split; [reflexivity|exact W]|exact I].
Qed.
#[export] Hint Resolve sfree_save sfree_increase sfree_decrease sfree_roll sfree_unroll : sfr.
Lemma sfree_reset : sfree reset_block. Proof. unfold reset_block. sfr. Qed.
#[export] Hint Resolve sfree_reset : sfr.
Lemma sfree_chars n t : sfree (fetch_chars n t). Proof. unfold fetch_chars. sfr. Qed.
#[export] Hint Resolve sfree_chars : sfr.
Lemma sfree_block_start p t : sfree (block_start p t). Proof. unfold block_start. sfr. Qed.
#[export] Hint Resolve sfree_block_start : sfr.
Lemma sfree_bad {A} : sfree (fun _ => @SBad A).
Proof. intros s W. exact I. Qed.
#[export] Hint Resolve sfree_bad : sfr.
Lemma sfree_branch b : sfree (fetch_branch b).
Proof.
  destruct b; cbn [fetch_branch];
  unfold fetch_stream_end, fetch_directive, fetch_document_indicator, fetch_flow_collection_start, fetch_flow_collection_end, fetch_flow_entry, fetch_block_entry, fetch_key, fetch_value, fetch_anchor, fetch_tag, fetch_block_scalar, fetch_flow_scalar, fetch_plain_scalar; sfr.
  intros s W. reflexivity.
Qed.
#[export] Hint Resolve sfree_branch : sfr.
Lemma sfree_next : sfree fetch_next_token. Proof. unfold fetch_next_token, fetch_stream_start. sfr. Qed.
#[export] Hint Resolve sfree_next : sfr.
Lemma sfree_more n : sfree (fetch_more_n n).
Proof.
  induction n as [|n IH]; intros s W; [reflexivity|]. cbn [fetch_more_n]. change (s_tokens (fulls s)) with (s_tokens s).
  revert s W. assert (K : forall q : list token, sfree (need <~ match q with [] => sret true | _ :: _ => stale_simple_keys ~;; s <~ get ;; sret (head_may_be_key s) end ;;
    (if need then fetch_next_token ~;; fetch_more_n n else modify (fun s => set_avail s true)))) by (intros q; sfr).
  intros s W. exact (K (s_tokens s) s W).
Qed.
Lemma sfree_more_tokens : sfree fetch_more_tokens.
Proof. intros s W. exact (sfree_more (length (c_text (s_cur s)) + 3) s W). Qed.

Lemma scan_full s : wfc (s_cur s) ->
  match scan s with
  | ScanToken t s' => scan (fulls s) = ScanToken t (fulls s') /\ wfc (s_cur s')
  | ScanNothing s' => scan (fulls s) = ScanNothing (fulls s') /\ wfc (s_cur s')
  | ScanFail s' => scan (fulls s) = ScanFail (fulls s') /\ wfc (s_cur s')
  | ScanBad => True
  | ScanFuel => True
  end.
Proof.
  intros W. unfold scan. change (s_ended (fulls s)) with (s_ended s). change (s_error (fulls s)) with (s_error s). change (s_avail (fulls s)) with (s_avail s).
  destruct (s_ended s || match s_error s with Some _ => true | None => false end); [auto|].
  assert (K : sfree (fun s0 => if s_avail s then SOk tt s0 else fetch_more_tokens s0)).
  { destruct (s_avail s); [intros x Wx; auto|]. exact sfree_more_tokens. }
  specialize (K s W). cbn beta in K. destruct (if s_avail s then SOk tt s else fetch_more_tokens s) as [a s'|e| |]; auto.
  - destruct K as [-> W']. change (s_tokens (fulls s')) with (s_tokens s'). destruct (s_tokens s') as [|t q]; [exact I|]. split; [reflexivity|exact W'].
  - rewrite K. auto.
Qed.

Lemma scan_all_full e nest T plan n : forall s, calls (init_scanner e nest T false plan) s -> wfc (s_cur s) -> scan_all n s = scan_all n (fulls s).
Proof.
  induction n as [|n IH]; intros s H W; [reflexivity|]. cbn [scan_all].
  pose proof (scan_safe _ _ _ _ _ _ H) as S1. pose proof (scan_returns _ _ _ _ _ _ H) as S2. pose proof (scan_full s W) as K.
  destruct (scan s) as [t s'|s'|s'| |] eqn:E; try contradiction; destruct K as [-> W'].
  - rewrite <- IH; [reflexivity| |exact W']. clear -H E. induction H; [econstructor; [exact E|constructor]|econstructor 2; eauto|econstructor 3; eauto|econstructor 4; eauto].
  - reflexivity.
  - reflexivity.
Qed.
Theorem scan_plan_free e nest T plan plan' n :
  scan_all n (init_scanner e nest T false plan) = scan_all n (init_scanner e nest T false plan').
Proof.
  assert (W : forall p, wfc (s_cur (init_scanner e nest T false p))) by (intros p; split; [reflexivity|cbn; lia]).
  rewrite (scan_all_full e nest T plan _ _ (calls_nil _) (W plan)), (scan_all_full e nest T plan' _ _ (calls_nil _) (W plan')). reflexivity.
Qed.
