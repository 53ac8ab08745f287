(* What the scanner does on a text whose end cannot be read, as compared with the whole text:
   the same, until it fails for want of characters (C72). *)
From Verif Require Import Base ReaderModel Utf8Spec CharSpec Types CursorModel ScanModel ScannerModel ScannerSpec ScannerFinal PlanFree.

Section Y.
Variable Y : list N.
(* the same cursor with the whole text, in the buffer *)
Definition whole (c : cur) : cur := mkCur (c_text c ++ Y) (S (length (c_text c ++ Y))) [] false (c_mark c).
Definition cut (c : cur) : Prop := c_bad c = true /\ (c_unread c <= length (c_text c))%nat.
Definition pre2 {A} (m m' : cm A) : Prop := forall c, cut c ->
  match m c with
  | COk a c' => m' (whole c) = COk a (whole c') /\ cut c'
  | CErr e => se_problem e = SReader \/ m' (whole c) = CErr e
  | CFuel => True
  | CBad => True
  end.
Definition pre {A} (m : cm A) : Prop := pre2 m m.
Lemma pre_ret {A} (a : A) : pre (ret a).
Proof. intros c W. cbn. auto. Qed.
Lemma pre_bind {A B} (m : cm A) (k : A -> cm B) : pre m -> (forall a, pre (k a)) -> pre (bind m k).
Proof.
  intros H K c W. unfold bind. specialize (H c W). destruct (m c) as [a c'|e| |]; auto.
  - destruct H as [-> W']. exact (K a c' W').
  - destruct H as [H|H]; [left; exact H|right]. rewrite H. reflexivity.
Qed.
Lemma pre_err {A} ctx p : pre (@err A ctx p).
Proof. intros c W. right. reflexivity. Qed.
Lemma pre_ub {A} : pre (@ub A).
Proof. intros c W. exact I. Qed.
Lemma pre_mark : pre get_mark.
Proof. intros c W. cbn. auto. Qed.
Lemma pre_column : pre column.
Proof. intros c W. cbn. auto. Qed.
Lemma pre_cache n : pre (cache n).
Proof.
  intros c [B W]. unfold whole at 1. unfold cache at 1. destruct (n <=? c_unread c)%nat eqn:E; [split; [apply cache_full|split; assumption]|].
  rewrite B. cbn [andb]. destruct (length (c_text c) <? n + hd 0 (c_plan c))%nat eqn:L; [left; reflexivity|]. apply Nat.ltb_ge in L.
  split; [apply cache_full|]. split; [reflexivity|]. cbn [c_unread c_text]. lia.
Qed.
Lemma pre_peek k : pre (peek k).
Proof.
  intros c [B W]. unfold peek. cbn [whole c_text c_unread]. destruct (k <? c_unread c)%nat eqn:E; cbn [andb]; [|exact I].
  apply Nat.ltb_lt in E. rewrite app_length. replace (k <? S (length (c_text c) + length Y))%nat with true by (symmetry; apply Nat.ltb_lt; lia). cbn [andb].
  rewrite firstn_app. replace (k - length (c_text c))%nat with 0%nat by lia. rewrite firstn_O, app_nil_r.
  destruct (forallb is_ascii (firstn k (c_text c))); [|exact I]. rewrite app_nth1 by lia. split; [unfold whole; rewrite ?app_length; reflexivity|split; assumption].
Qed.
Lemma pre_skip : pre skip.
Proof.
  intros c [B W]. unfold skip. cbn [whole c_text c_unread c_plan c_bad c_mark]. destruct (c_text c) as [|x r] eqn:E; [exact I|].
  destruct (c_unread c) as [|u]; [exact I|]. cbn [length app] in *. split; [reflexivity|]. split; [exact B|]. cbn. lia.
Qed.
Lemma pre_drop_line k : pre (drop_line k).
Proof.
  intros c [B W]. unfold drop_line. cbn [whole c_text c_unread c_plan c_bad c_mark].
  destruct (k <=? c_unread c)%nat eqn:E1; [|exact I]. destruct (k <=? length (c_text c))%nat eqn:E2; [|exact I]. cbn [andb].
  apply Nat.leb_le in E1, E2. rewrite app_length. replace (k <=? S (length (c_text c) + length Y))%nat with true by (symmetry; apply Nat.leb_le; lia).
  replace (k <=? length (c_text c) + length Y)%nat with true by (symmetry; apply Nat.leb_le; lia). cbn [andb].
  split; [|split; [exact B|]].
  - unfold whole. cbn [c_text c_mark]. rewrite skipn_app, app_length, !skipn_length. replace (k - length (c_text c))%nat with 0%nat by lia. cbn [skipn].
    do 2 f_equal. lia.
  - cbn [c_unread c_text]. rewrite skipn_length. lia.
Qed.
Lemma pre_force_line : pre force_line.
Proof.
  intros c W. unfold force_line. cbn [whole c_mark]. destruct (m_column (c_mark c) =? 0); (split; [reflexivity|]); [exact W|]. exact W.
Qed.
Lemma pre_loop_n {A B} (body : A -> cm (A + B)) : (forall a, pre (body a)) -> forall n n' a, (n <= n')%nat -> pre2 (loop_n n body a) (loop_n n' body a).
Proof.
  intros H. induction n as [|n IH]; intros [|n'] a L c W; try exact I; try lia. cbn [loop_n]. pose proof (H a c W) as K.
  destruct (body a c) as [[a'|b] c'|e| |]; auto.
  - destruct K as [-> W']. exact (IH n' a' ltac:(lia) c' W').
  - destruct K as [-> W']. auto.
  - destruct K as [K|K]; [left; exact K|right]. rewrite K. reflexivity.
Qed.
Lemma pre_loop {A B} (body : A -> cm (A + B)) a : (forall a, pre (body a)) -> pre (loop body a).
Proof. intros H c W. apply (pre_loop_n body H (S (length (c_text c))) (S (length (c_text (whole c)))) a); [cbn [whole c_text]; rewrite app_length; lia|exact W]. Qed.
Lemma pre_andc a b : pre a -> pre b -> pre (andc a b).
Proof. intros Ha Hb. apply pre_bind; [exact Ha|]. intros []; [exact Hb|apply pre_ret]. Qed.
Lemma pre_orc a b : pre a -> pre b -> pre (orc a b).
Proof. intros Ha Hb. apply pre_bind; [exact Ha|]. intros []; [apply pre_ret|exact Hb]. Qed.
Lemma pre_check k p : pre (check k p).
Proof. apply pre_bind; [apply pre_peek|]. intros; apply pre_ret. Qed.

Create HintDb pf discriminated.
#[local] Hint Resolve pre_ret pre_err pre_ub pre_mark pre_column pre_cache pre_peek pre_skip pre_drop_line pre_force_line pre_check : pf.
Ltac pf :=
  repeat (intros; match goal with
  | |- pre (bind _ _) => apply pre_bind
  | |- pre (andc _ _) => apply pre_andc
  | |- pre (orc _ _) => apply pre_orc
  | |- pre (loop _ _) => apply pre_loop
  | |- pre (if ?b then _ else _) => destruct b
  | |- pre (match ?x with _ => _ end) => destruct x
  | |- pre (let '(_, _) := ?x in _) => destruct x
  | |- _ => solve [auto with pf]
  end).
Lemma pre_is_crlf : pre is_crlf. Proof. unfold is_crlf. pf. Qed.
#[local] Hint Resolve pre_is_crlf : pf.
Lemma pre_skip_line : pre skip_line. Proof. unfold skip_line. pf. Qed.
Lemma pre_read s : pre (read s). Proof. unfold read. pf. Qed.
Lemma pre_read_line s : pre (read_line s). Proof. unfold read_line. pf. Qed.
Lemma pre_put s bs : pre (put s bs). Proof. unfold put. pf. Qed.
#[local] Hint Resolve pre_skip_line pre_read pre_read_line pre_put : pf.
Lemma pre_skip_while p : pre (skip_while p). Proof. unfold skip_while. pf. Qed.
Lemma pre_read_while p s : pre (read_while p s). Proof. unfold read_while. pf. Qed.
#[local] Hint Resolve pre_skip_while pre_read_while : pf.
Lemma pre_scan_to_next_token f a : pre (scan_to_next_token f a). Proof. unfold scan_to_next_token. pf. Qed.
Lemma pre_scan_line_end s p : pre (scan_line_end s p). Proof. unfold scan_line_end. pf. Qed.
Lemma pre_scan_directive_name s : pre (scan_directive_name s). Proof. unfold scan_directive_name. pf. Qed.
Lemma pre_scan_version_number s : pre (scan_version_number s). Proof. unfold scan_version_number. pf. Qed.
#[local] Hint Resolve pre_scan_to_next_token pre_scan_line_end pre_scan_directive_name pre_scan_version_number : pf.
Lemma pre_scan_version_value s : pre (scan_version_value s). Proof. unfold scan_version_value. pf. Qed.
Lemma pre_scan_tag_handle d s : pre (scan_tag_handle d s). Proof. unfold scan_tag_handle. pf. Qed.
Lemma pre_scan_uri_escapes s x : pre (scan_uri_escapes s x). Proof. unfold scan_uri_escapes. pf. Qed.
#[local] Hint Resolve pre_scan_version_value pre_scan_tag_handle pre_scan_uri_escapes : pf.
Lemma pre_scan_tag_uri u h s : pre (scan_tag_uri u h s). Proof. unfold scan_tag_uri. pf. Qed.
#[local] Hint Resolve pre_scan_tag_uri : pf.
Lemma pre_scan_tag_directive_value s : pre (scan_tag_directive_value s). Proof. unfold scan_tag_directive_value. pf. Qed.
#[local] Hint Resolve pre_scan_tag_directive_value : pf.
Lemma pre_scan_directive : pre scan_directive. Proof. unfold scan_directive. pf. Qed.
Lemma pre_scan_anchor a : pre (scan_anchor a). Proof. unfold scan_anchor. pf. Qed.
Lemma pre_scan_tag f : pre (scan_tag f). Proof. unfold scan_tag. pf. Qed.
Lemma pre_scan_block_scalar_breaks p i b s : pre (scan_block_scalar_breaks p i b s). Proof. unfold scan_block_scalar_breaks. pf. Qed.
Lemma pre_scan_block_header s : pre (scan_block_header s). Proof. unfold scan_block_header. pf. Qed.
#[local] Hint Resolve pre_scan_directive pre_scan_anchor pre_scan_tag pre_scan_block_scalar_breaks pre_scan_block_header : pf.
Lemma pre_scan_block_scalar p l : pre (scan_block_scalar p l). Proof. unfold scan_block_scalar. pf. Qed.
Lemma pre_triple x : pre (triple x). Proof. unfold triple. pf. Qed.
#[local] Hint Resolve pre_scan_block_scalar pre_triple : pf.
Lemma pre_document_indicator : pre document_indicator. Proof. unfold document_indicator. pf. Qed.
Lemma pre_scan_hex n : forall k s v, pre (scan_hex n k s v). Proof. induction n; intros; cbn [scan_hex]; pf. Qed.
Lemma pre_skip_n n : pre (skip_n n). Proof. induction n; cbn [skip_n]; pf. Qed.
#[local] Hint Resolve pre_document_indicator pre_scan_hex pre_skip_n : pf.
Lemma pre_scan_escape s x : pre (scan_escape s x). Proof. unfold scan_escape. pf. Qed.
#[local] Hint Resolve pre_scan_escape : pf.
Lemma pre_scan_quoted_word b s x : pre (scan_quoted_word b s x). Proof. unfold scan_quoted_word. pf. Qed.
Lemma pre_scan_quoted_blanks b : pre (scan_quoted_blanks b). Proof. unfold scan_quoted_blanks. pf. Qed.
Lemma pre_fold_breaks s l t : pre (fold_breaks s l t). Proof. unfold fold_breaks. pf. Qed.
#[local] Hint Resolve pre_scan_quoted_word pre_scan_quoted_blanks pre_fold_breaks : pf.
Lemma pre_scan_flow_scalar b : pre (scan_flow_scalar b). Proof. unfold scan_flow_scalar. pf. Qed.
Lemma pre_scan_plain_word f s x : pre (scan_plain_word f s x). Proof. unfold scan_plain_word. pf. Qed.
Lemma pre_scan_plain_blanks i s b : pre (scan_plain_blanks i s b). Proof. unfold scan_plain_blanks. pf. Qed.
#[local] Hint Resolve pre_scan_flow_scalar pre_scan_plain_word pre_scan_plain_blanks : pf.
Lemma pre_scan_plain_scalar f i : pre (scan_plain_scalar f i). Proof. unfold scan_plain_scalar. pf. Qed.
Lemma pre_plain_start f : pre (plain_start f). Proof. unfold plain_start. pf. Qed.
#[local] Hint Resolve pre_scan_plain_scalar pre_plain_start : pf.
Lemma pre_choose f : pre (choose f). Proof. unfold choose. pf. Qed.
#[local] Hint Resolve pre_choose : pf.


(* --- the token fetchers --- *)
Definition wholes (s : sc) : sc := set_cur s (whole (s_cur s)).
Definition spre2 {A} (m m' : sm A) : Prop := forall s, cut (s_cur s) ->
  match m s with
  | SOk a s' => m' (wholes s) = SOk a (wholes s') /\ cut (s_cur s')
  | SErr e => se_problem e = SReader \/ m' (wholes s) = SErr e
  | SFuel => True
  | SBad => True
  end.
Definition spre {A} (m : sm A) : Prop := spre2 m m.
Lemma spre2_bind {A B} (m : sm A) (k k' : A -> sm B) : spre m -> (forall a, spre2 (k a) (k' a)) -> spre2 (sbind m k) (sbind m k').
Proof.
  intros H K s W. unfold sbind. specialize (H s W). destruct (m s) as [a s'|e| |]; auto.
  - destruct H as [-> W']. exact (K a s' W').
  - destruct H as [H|H]; [left; exact H|right]. rewrite H. reflexivity.
Qed.
Lemma spre_bind {A B} (m : sm A) (k : A -> sm B) : spre m -> (forall a, spre (k a)) -> spre (sbind m k).
Proof. apply spre2_bind. Qed.
Lemma spre_get {B} (k : sc -> sm B) : (forall s, k (wholes s) = k s) -> (forall s, spre (k s)) -> spre (sbind get k).
Proof. intros E K s W. unfold sbind, get. rewrite E. exact (K s s W). Qed.
Lemma spre_modify f : (forall s, f (wholes s) = wholes (f s)) -> (forall s, s_cur (f s) = s_cur s) -> spre (modify f).
Proof. intros E C s W. unfold modify. rewrite E. split; [reflexivity|]. rewrite C. exact W. Qed.
Lemma spre_ret {A} (a : A) : spre (sret a).
Proof. intros s W. split; [reflexivity|exact W]. Qed.
Lemma spre_error {A} ctx p : spre (@serror A ctx p).
Proof. intros s W. right. reflexivity. Qed.
Lemma spre_lift {A} (m : cm A) : pre m -> spre (lift m).
Proof.
  intros H s W. unfold lift. cbn [wholes set_cur s_cur]. specialize (H _ W). destruct (m (s_cur s)) as [a c'|e| |]; auto.
  - destruct H as [-> W']. split; [reflexivity|exact W'].
  - destruct H as [H|H]; [left; exact H|right]. rewrite H. reflexivity.
Qed.
Lemma spre_allow b : spre (allow b).
Proof. apply spre_modify; reflexivity. Qed.
Lemma spre_enqueue t : spre (enqueue t).
Proof. apply spre_modify; reflexivity. Qed.
Lemma spre_insert n t : spre (queue_insert n t).
Proof. intros s W. unfold queue_insert. cbn [wholes set_cur s_parsed s_tokens]. destruct (_ && _); [|exact I]. split; [reflexivity|exact W]. Qed.
Lemma spre_stale : spre stale_simple_keys.
Proof. intros s W. unfold stale_simple_keys. change (smark (wholes s)) with (smark s). change (s_keys (wholes s)) with (s_keys s). destruct (stale _ _); [split; [reflexivity|exact W]|right; reflexivity]. Qed.
Lemma spre_remove : spre remove_simple_key.
Proof.
  intros s W. unfold remove_simple_key. change (smark (wholes s)) with (smark s). change (s_keys (wholes s)) with (s_keys s).
  destruct (s_keys s) as [|k ks]; [exact I|]. destruct (_ && _); [right; reflexivity|split; [reflexivity|exact W]].
Qed.
Create HintDb spf discriminated.
#[local] Hint Resolve spre_ret spre_error spre_allow spre_enqueue spre_insert spre_stale spre_remove : spf.
Ltac spf :=
  repeat (intros; match goal with
  | |- spre (sbind get _) => apply spre_get; [reflexivity|]
  | |- spre (sbind _ _) => apply spre_bind
  | |- spre (modify _) => apply spre_modify; reflexivity
  | |- spre (lift _) => apply spre_lift; solve [auto with pf]
  | |- spre (if ?b then _ else _) => destruct b
  | |- spre (match ?x with _ => _ end) => destruct x
  | |- _ => solve [auto with spf]
  end).
Lemma spre_save : spre save_simple_key. Proof. unfold save_simple_key. spf. Qed.
Lemma spre_increase : spre increase_flow_level. Proof. unfold increase_flow_level. spf. Qed.
Lemma spre_decrease : spre decrease_flow_level.
Proof.
  intros s W. unfold decrease_flow_level. change (s_flow (wholes s)) with (s_flow s). change (s_keys (wholes s)) with (s_keys s).
  destruct (s_flow s =? 0); [split; [reflexivity|exact W]|]. destruct (s_keys s); [exact I|]. split; [reflexivity|exact W].
Qed.
Lemma spre_roll c n t m : spre (roll_indent c n t m). Proof. unfold roll_indent. spf. Qed.
Lemma spre_unroll c : spre (unroll_indent c).
Proof.
  intros s W. unfold unroll_indent. change (in_flow (wholes s)) with (in_flow s). change (smark (wholes s)) with (smark s).
  change (s_indent (wholes s)) with (s_indent s). change (s_indents (wholes s)) with (s_indents s). change (s_tokens (wholes s)) with (s_tokens s).
  destruct (in_flow s); [split; [reflexivity|exact W]|]. destruct (unroll _ _ _ _ _) as [[[i is] q]|]; [split; [reflexivity|exact W]|exact I].
Qed.
#[local] Hint Resolve spre_save spre_increase spre_decrease spre_roll spre_unroll : spf.
Lemma spre_reset : spre reset_block. Proof. unfold reset_block. spf. Qed.
#[local] Hint Resolve spre_reset : spf.
Lemma spre_chars n t : spre (fetch_chars n t). Proof. unfold fetch_chars. spf. Qed.
#[local] Hint Resolve spre_chars : spf.
Lemma spre_block_start p t : spre (block_start p t). Proof. unfold block_start. spf. Qed.
#[local] Hint Resolve spre_block_start : spf.
Lemma spre_bad {A} : spre (fun _ => @SBad A).
Proof. intros s W. exact I. Qed.
#[local] Hint Resolve spre_bad : spf.
Lemma spre_branch b : spre (fetch_branch b).
Proof.
  destruct b; cbn [fetch_branch];
  unfold fetch_stream_end, fetch_directive, fetch_document_indicator, fetch_flow_collection_start, fetch_flow_collection_end, fetch_flow_entry, fetch_block_entry, fetch_key, fetch_value, fetch_anchor, fetch_tag, fetch_block_scalar, fetch_flow_scalar, fetch_plain_scalar; spf.
  intros s W. right. reflexivity.
Qed.
#[local] Hint Resolve spre_branch : spf.
Lemma spre_next : spre fetch_next_token. Proof. unfold fetch_next_token, fetch_stream_start. spf. Qed.
#[local] Hint Resolve spre_next : spf.
Lemma spre_more n : forall n', (n <= n')%nat -> spre2 (fetch_more_n n) (fetch_more_n n').
Proof.
  induction n as [|n IH]; intros [|n'] L s W; try exact I; try lia. cbn [fetch_more_n]. change (s_tokens (wholes s)) with (s_tokens s).
  revert s W. assert (K : forall q : list token, spre2 (need <~ match q with [] => sret true | _ :: _ => stale_simple_keys ~;; s <~ get ;; sret (head_may_be_key s) end ;;
    (if need then fetch_next_token ~;; fetch_more_n n else modify (fun s => set_avail s true)))
    (need <~ match q with [] => sret true | _ :: _ => stale_simple_keys ~;; s <~ get ;; sret (head_may_be_key s) end ;;
    (if need then fetch_next_token ~;; fetch_more_n n' else modify (fun s => set_avail s true)))).
  { intros q. apply spre2_bind; [spf|]. intros []; [|apply spre_modify; reflexivity]. apply spre2_bind; [apply spre_next|]. intros _. apply IH. lia. }
  intros s W. exact (K (s_tokens s) s W).
Qed.
Lemma spre_more_tokens : spre fetch_more_tokens.
Proof. intros s W. apply (spre_more (length (c_text (s_cur s)) + 3) (length (c_text (s_cur (wholes s))) + 3)); [cbn [wholes set_cur s_cur whole c_text]; rewrite app_length; lia|exact W]. Qed.

Lemma scan_whole s : cut (s_cur s) ->
  match scan s with
  | ScanToken t s' => scan (wholes s) = ScanToken t (wholes s') /\ cut (s_cur s')
  | ScanNothing s' => scan (wholes s) = ScanNothing (wholes s')
  | ScanFail s' => (exists er, s_error s' = Some er /\ se_problem er = SReader) \/ scan (wholes s) = ScanFail (wholes s')
  | ScanBad => True
  | ScanFuel => True
  end.
Proof.
  intros W. unfold scan. change (s_ended (wholes s)) with (s_ended s). change (s_error (wholes s)) with (s_error s). change (s_avail (wholes s)) with (s_avail s).
  destruct (s_ended s || match s_error s with Some _ => true | None => false end); [auto|].
  assert (K : spre (fun s0 => if s_avail s then SOk tt s0 else fetch_more_tokens s0)).
  { destruct (s_avail s); [intros x Wx; auto|]. exact spre_more_tokens. }
  specialize (K s W). cbn beta in K. destruct (if s_avail s then SOk tt s else fetch_more_tokens s) as [a s'|e| |]; auto.
  - destruct K as [-> W']. change (s_tokens (wholes s')) with (s_tokens s'). destruct (s_tokens s') as [|t q]; [exact I|]. split; [reflexivity|exact W'].
  - destruct K as [K|K]; [left; exists e; split; [reflexivity|exact K]|right]. rewrite K. reflexivity.
Qed.

Lemma scan_all_whole e nest t plan n : forall n' s l o, (n <= n')%nat -> calls (init_scanner e nest t true plan) s -> cut (s_cur s) -> scan_all n s = (l, o) ->
  (o = Unfinished \/ scan_all n' (wholes s) = (l, o)) \/ (exists er, o = Failed er /\ se_problem er = SReader) /\ exists more, fst (scan_all n' (wholes s)) = l ++ more.
Proof.
  induction n as [|n IH]; intros [|n'] s l o L H W; cbn [scan_all]; try lia; try (intros [= <- <-]; auto; fail).
  pose proof (scan_safe _ _ _ _ _ _ H) as S1. pose proof (scan_returns _ _ _ _ _ _ H) as S2. pose proof (scan_whole s W) as K.
  destruct (scan s) as [x s'|s'|s'| |] eqn:E; try contradiction.
  - destruct K as [-> W']. destruct (scan_all n s') as [l1 o1] eqn:R. intros [= <- <-].
    assert (C : calls (init_scanner e nest t true plan) s').
    { clear -H E. induction H; [econstructor; [exact E|constructor]|econstructor 2; eauto|econstructor 3; eauto|econstructor 4; eauto]. }
    destruct (IH n' s' l1 o1 ltac:(lia) C W' R) as [[->|D]|(D1 & more & D2)]; [auto| |].
    + left. right. rewrite D. reflexivity.
    + right. split; [exact D1|]. exists more. destruct (scan_all n' (wholes s')). cbn in *. rewrite D2. reflexivity.
  - rewrite K. change (s_error (wholes s')) with (s_error s'). auto.
  - destruct K as [(er & E1 & E2)|K].
    + rewrite E1. intros [= <- <-]. right. split; [eauto|]. eexists. reflexivity.
    + rewrite K. change (s_error (wholes s')) with (s_error s'). auto.
Qed.
End Y.
