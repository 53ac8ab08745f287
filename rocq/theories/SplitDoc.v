(* The state of the scanner in which a DOCUMENT-END token outside flow collections has just
   been handed out: nothing else has been fetched, and nothing of the document is left. *)
From Verif Require Import Base ReaderModel Utf8Spec CharSpec Types CursorModel ScanModel ScannerModel CursorProofs ScanProofs ScanQuoted
  ScannerSpec ScannerInv ScannerFetch ScannerBranch ScannerBlock ScannerLoop ScannerFinal.

Definition is_doc_end (t : token) : bool := match t_tok t with TDocEnd => true | _ => false end.
(* no DOCUMENT-END at flow depth 0, from depth [f] on *)
Fixpoint nd (f : N) (q : list token) : Prop :=
  match q with [] => True | x :: r => (f = 0 -> is_doc_end x = false) /\ nd (flow_after f x) r end.
Lemma nd_app f a b : nd f (a ++ b) <-> nd f a /\ nd (flow_from f a) b.
Proof. revert f. induction a as [|x a IH]; intros f; cbn; [tauto|]. rewrite IH. tauto. Qed.
Lemma nd_snoc f q x : is_doc_end x = false -> nd f q -> nd f (q ++ [x]).
Proof. intros H K. apply nd_app. cbn. auto. Qed.

(* what token scanners return *)
Definition ylds {A} (P : A -> Prop) (m : cm A) : Prop := forall c, match m c with COk a _ => P a | _ => True end.
Lemma ylds_bind {A B} (P : B -> Prop) (m : cm A) (k : A -> cm B) : (forall a, ylds P (k a)) -> ylds P (bind m k).
Proof. intros H c. unfold bind. destruct (m c) as [a c'| | |]; auto. apply H. Qed.
Lemma ylds_bind' {A B} (R : A -> Prop) (P : B -> Prop) (m : cm A) (k : A -> cm B) : ylds R m -> (forall a, R a -> ylds P (k a)) -> ylds P (bind m k).
Proof. intros M H c. unfold bind. specialize (M c). destruct (m c) as [a c'| | |]; auto. apply H, M. Qed.
Lemma ylds_ret {A} (P : A -> Prop) a : P a -> ylds P (ret a). Proof. intros H c. exact H. Qed.
Lemma ylds_err {A} (P : A -> Prop) o p : ylds P (@err A o p). Proof. intros c. exact I. Qed.
Definition plain_tok (t : token) : Prop := is_doc_end t = false.
Ltac yl := repeat match goal with
  | |- ylds _ (bind _ _) => apply ylds_bind; intros
  | |- ylds _ (ret _) => apply ylds_ret
  | |- ylds _ (err _ _) => apply ylds_err
  | |- ylds _ (if ?b then _ else _) => destruct b
  | |- ylds _ (match ?x with _ => _ end) => destruct x
  end; try reflexivity.
Lemma y_directive : ylds plain_tok scan_directive.
Proof. unfold scan_directive. apply ylds_bind; intros. apply ylds_bind; intros. apply ylds_bind; intros. apply (ylds_bind' plain_tok); [yl|]. intros x Hx. yl; exact Hx. Qed.
Lemma y_anchor a : ylds plain_tok (scan_anchor a). Proof. unfold scan_anchor. yl. destruct a; reflexivity. Qed.
Definition tag_tok (t : tok) : Prop := match t with TTag _ _ => True | _ => False end.
Lemma y_tag f : ylds plain_tok (scan_tag f).
Proof.
  unfold scan_tag. apply ylds_bind; intros. apply ylds_bind; intros. apply ylds_bind; intros.
  apply (ylds_bind' tag_tok); [yl; exact I|]. intros x Hx. yl. destruct x; try contradiction; reflexivity.
Qed.
Lemma y_block_scalar i l : ylds plain_tok (scan_block_scalar i l). Proof. unfold scan_block_scalar. yl. Qed.
Lemma y_flow_scalar b : ylds plain_tok (scan_flow_scalar b). Proof. unfold scan_flow_scalar. yl. Qed.
Lemma y_plain_scalar f i : ylds (fun r => plain_tok (fst r)) (scan_plain_scalar f i). Proof. unfold scan_plain_scalar. yl. Qed.

(* fetching that adds no DOCUMENT-END *)
Definition keepq {A} (P : A -> Prop) (m : sm A) : Prop := forall f s, nd f (s_tokens s) -> match m s with SOk a s' => P a /\ nd f (s_tokens s') | _ => True end.
Definition keeps {A} (m : sm A) : Prop := keepq (fun _ => True) m.
Lemma keeps_bind {A B} (m : sm A) (k : A -> sm B) : keeps m -> (forall a, keeps (k a)) -> keeps (sbind m k).
Proof. intros H K f s N. specialize (H f s N). unfold sbind. destruct (m s) as [a s1| | |]; auto. apply K, H. Qed.
Lemma keeps_bind' {A B} (P : A -> Prop) (m : sm A) (k : A -> sm B) : keepq P m -> (forall a, P a -> keeps (k a)) -> keeps (sbind m k).
Proof. intros H K f s N. specialize (H f s N). unfold sbind. destruct (m s) as [a s1| | |]; auto. apply K; apply H. Qed.
Lemma keeps_ret {A} (a : A) : keeps (sret a). Proof. intros f s N. cbn. auto. Qed.
Lemma keeps_get : keeps get. Proof. intros f s N. cbn. auto. Qed.
Lemma keeps_error {A} o p : keeps (@serror A o p). Proof. intros f s N. exact I. Qed.
Lemma keeps_bad {A} : keeps (fun _ => @SBad A). Proof. intros f s N. exact I. Qed.
Lemma keeps_modify g : (forall s, s_tokens (g s) = s_tokens s) -> keeps (modify g).
Proof. intros H f s N. cbn. rewrite H. auto. Qed.
Lemma keepq_lift {A} (P : A -> Prop) (m : cm A) : ylds P m -> keepq P (lift m).
Proof. intros H f s N. unfold lift. specialize (H (s_cur s)). destruct (m (s_cur s)); auto. Qed.
Lemma keeps_lift {A} (m : cm A) : keeps (lift m).
Proof. apply keepq_lift. intros c. destruct (m c); exact I. Qed.
Lemma keeps_enqueue t : is_doc_end t = false -> keeps (enqueue t).
Proof. intros H f s N. cbn. split; [exact I|]. apply nd_snoc; auto. Qed.
Definition inert (t : token) : Prop := is_doc_end t = false /\ forall f, flow_after f t = f.
Lemma nd_insert t : inert t -> forall i f q, nd f q -> nd f (firstn i q ++ t :: skipn i q).
Proof.
  intros [H1 H2] i f q N. rewrite <- (firstn_skipn i q) in N. apply nd_app in N as [N1 N2]. apply nd_app. split; [exact N1|]. cbn. rewrite H2. auto.
Qed.
Lemma keeps_insert n t : inert t -> keeps (queue_insert n t).
Proof. intros H f s N. unfold queue_insert. destruct (_ && _); [|exact I]. split; [exact I|]. apply nd_insert; auto. Qed.
Lemma keeps_stale : keeps stale_simple_keys.
Proof. intros f s N. unfold stale_simple_keys. destruct (stale _ _); auto. Qed.
Lemma keeps_remove : keeps remove_simple_key.
Proof. intros f s N. unfold remove_simple_key. destruct (s_keys s); [exact I|]. destruct (_ && _); cbn; auto. Qed.
Lemma keeps_decrease : keeps decrease_flow_level.
Proof. intros f s N. unfold decrease_flow_level. destruct (_ =? _); [auto|]. destruct (s_keys s); cbn; auto. Qed.
Lemma nd_unroll f m c : forall is i q, nd f q -> match unroll m c i is q with Some (i', _, q') => nd f q' /\ (i' <= c)%Z | None => True end.
Proof.
  induction is as [|j is IH]; intros i q N; cbn [unroll]; destruct (Z.ltb_spec c i); auto. apply IH, nd_snoc; auto.
Qed.
Lemma keeps_unroll c : keeps (unroll_indent c).
Proof.
  intros f s N. unfold unroll_indent. destruct (in_flow s); [auto|]. pose proof (nd_unroll f (smark s) c (s_indents s) (s_indent s) _ N) as K.
  destruct (unroll _ _ _ _ _) as [[[i is] q]|]; [|exact I]. cbn. tauto.
Qed.
Lemma inert_key t m : t = TKey \/ t = TBlockMapStart \/ t = TBlockSeqStart -> inert (mkToken t m m false).
Proof. intros [->|[->| ->]]; split; reflexivity. Qed.
Ltac kp := repeat match goal with
  | |- keeps (sbind (lift scan_directive) _) => apply (keeps_bind' plain_tok); [apply keepq_lift, y_directive|intros]
  | |- keeps (sbind (lift (scan_anchor _)) _) => apply (keeps_bind' plain_tok); [apply keepq_lift, y_anchor|intros]
  | |- keeps (sbind (lift (scan_tag _)) _) => apply (keeps_bind' plain_tok); [apply keepq_lift, y_tag|intros]
  | |- keeps (sbind (lift (scan_block_scalar _ _)) _) => apply (keeps_bind' plain_tok); [apply keepq_lift, y_block_scalar|intros]
  | |- keeps (sbind (lift (scan_flow_scalar _)) _) => apply (keeps_bind' plain_tok); [apply keepq_lift, y_flow_scalar|intros]
  | |- keeps (sbind (lift (scan_plain_scalar _ _)) _) => apply (keeps_bind' (fun r => plain_tok (fst r))); [apply keepq_lift, y_plain_scalar|intros]
  | |- keeps (sbind _ _) => apply keeps_bind; [|intros]
  | |- keeps (modify _) => apply keeps_modify; reflexivity
  | |- keeps (allow _) => apply keeps_modify; reflexivity
  | |- keeps (enqueue _) => apply keeps_enqueue; try reflexivity; try assumption
  | |- keeps (lift _) => apply keeps_lift
  | |- keeps (if ?b then _ else _) => destruct b
  | |- keeps (match ?x with _ => _ end) => destruct x
  | |- keeps (sret _) => apply keeps_ret
  | |- keeps get => apply keeps_get
  | |- keeps (serror _ _) => apply keeps_error
  | |- keeps (fun _ => SBad) => apply keeps_bad
  | |- keeps (queue_insert _ _) => apply keeps_insert
  | |- keeps stale_simple_keys => apply keeps_stale
  | |- keeps remove_simple_key => apply keeps_remove
  | |- keeps decrease_flow_level => apply keeps_decrease
  | |- keeps (unroll_indent _) => apply keeps_unroll
  end.
Lemma keeps_save : keeps save_simple_key. Proof. unfold save_simple_key. kp. Qed.
Lemma keeps_increase : keeps increase_flow_level. Proof. unfold increase_flow_level. kp. Qed.
Lemma keeps_roll c n t m : t = TBlockMapStart \/ t = TBlockSeqStart -> keeps (roll_indent c n t m).
Proof. intros H. unfold roll_indent. kp; [apply inert_key; tauto|destruct H as [->| ->]; reflexivity]. Qed.
Lemma keeps_chars n t : t <> TDocEnd -> keeps (fetch_chars n t).
Proof. intros H. unfold fetch_chars. kp. unfold is_doc_end. cbn. destruct t; try reflexivity. congruence. Qed.
Lemma keeps_block_start p t : t = TBlockMapStart \/ t = TBlockSeqStart -> keeps (block_start p t).
Proof. intros H. unfold block_start. kp. apply keeps_roll, H. Qed.
Lemma keeps_reset : keeps reset_block. Proof. unfold reset_block. kp. Qed.
Lemma keeps_branch b : b <> BDocEnd -> keeps (fetch_branch b).
Proof.
  intros H. destruct b; cbn [fetch_branch]; try congruence; unfold fetch_stream_end, fetch_directive, fetch_document_indicator, fetch_flow_collection_start, fetch_flow_collection_end, fetch_flow_entry,
    fetch_block_entry, fetch_key, fetch_value, fetch_anchor, fetch_tag, fetch_block_scalar, fetch_flow_scalar, fetch_plain_scalar;
  repeat first [progress kp | apply keeps_reset | apply keeps_save | apply keeps_increase | apply keeps_chars; discriminate | apply keeps_block_start; auto | apply keeps_roll; auto | apply inert_key; auto].
  intros f s N. exact I.
Qed.

(* what is known when a DOCUMENT-END is the last token of the queue *)
Record just (s : sc) (d : token) : Prop := {
  j_tok : t_tok d = TDocEnd;
  j_end : t_end d = smark s;
  j_index : m_index (t_end d) = m_index (t_start d) + 3;
  j_line : m_line (t_end d) = m_line (t_start d);
  j_key : match s_keys s with k :: _ => k_possible k = false | [] => True end;
  j_indent : s_flow s = 0 -> (s_indent s <= -1)%Z }.
Definition last_doc (f : N) (s : sc) : Prop :=
  nd f (s_tokens s) \/ exists q d, s_tokens s = q ++ [d] /\ nd f q /\ just s d.

Lemma skip_n_mark n : forall c c', skip_n n c = COk tt c' -> m_index (c_mark c') = m_index (c_mark c) + N.of_nat n /\ m_line (c_mark c') = m_line (c_mark c).
Proof.
  induction n as [|n IH]; intros c c' E; cbn [skip_n] in E; [injection E as <-; split; lia|].
  unfold bind in E. destruct (skip c) as [[] c1| | |] eqn:E1; try discriminate. apply IH in E as [A B]. rewrite A, B.
  unfold skip in E1. destruct (c_text c), (c_unread c); try discriminate. injection E1 as <-. unfold next_column. cbn. lia.
Qed.
Lemma doc_end_fetch f s : nd f (s_tokens s) -> match fetch_document_indicator TDocEnd s with SOk _ s' => last_doc f s' | _ => True end.
Proof.
  intros N. unfold fetch_document_indicator, reset_block, sbind.
  assert (U : match unroll_indent (-1) s with SOk _ s1 => nd f (s_tokens s1) /\ s_flow s1 = s_flow s /\ (s_flow s = 0 -> (s_indent s1 <= -1)%Z) | _ => True end).
  { unfold unroll_indent, in_flow. destruct (N.eqb_spec (s_flow s) 0) as [F|F]; cbn [negb]; [|split; [exact N|split; [reflexivity|congruence]]].
    pose proof (nd_unroll f (smark s) (-1) (s_indents s) (s_indent s) _ N) as K. destruct (unroll _ _ _ _ _) as [[[i is] q]|]; [|exact I]. cbn. split; [apply K|]. split; [reflexivity|]. intros _. apply K. }
  destruct (unroll_indent (-1) s) as [[] s1| | |]; auto. destruct U as (N1 & F1 & I1). unfold remove_simple_key. destruct (s_keys s1) as [|k ks] eqn:K; [exact I|].
  destruct (_ && _); [exact I|]. unfold allow, modify, fetch_chars, sbind, get, lift. cbn [set_allowed set_keys s_cur].
  destruct (skip_n 3 (s_cur s1)) as [[] c'| | |] eqn:E; auto. apply skip_n_mark in E as [A B]. unfold enqueue, modify. cbn [set_cur s_tokens set_allowed set_keys].
  right. exists (s_tokens s1). eexists. split; [reflexivity|]. split; [exact N1|]. constructor; cbn; auto. rewrite F1. exact I1.
Qed.
Lemma last_next f s : s_started s = true -> nd f (s_tokens s) -> match fetch_next_token s with SOk _ s' => last_doc f s' | _ => True end.
Proof.
  intros St N.
  assert (L : forall {A} (m : sm A) (k : A -> sm unit), keeps m -> (forall a s1, nd f (s_tokens s1) -> match k a s1 with SOk _ s' => last_doc f s' | _ => True end) ->
     forall s0, nd f (s_tokens s0) -> match sbind m k s0 with SOk _ s' => last_doc f s' | _ => True end).
  { intros A m k H K s0 N0. specialize (H f s0 N0). unfold sbind. destruct (m s0) as [a s1| | |]; auto. apply K, H. }
  unfold fetch_next_token. unfold sbind at 1. unfold lift at 1. destruct (cache 1 (s_cur s)) as [[] c| | |]; auto. unfold sbind at 1. cbn [get].
  change (s_started (set_cur s c)) with (s_started s). rewrite St. cbn [negb].
  apply L; [apply keeps_lift| |exact N]. intros a s1 N1. apply L; [apply keeps_modify; reflexivity| |exact N1]. intros _ s2 N2.
  apply L; [apply keeps_stale| |exact N2]. intros _ s3 N3. apply L; [apply keeps_get| |exact N3]. intros s3' s4 N4.
  apply L; [apply keeps_unroll| |exact N4]. intros _ s5 N5. apply L; [apply keeps_lift| |exact N5]. intros _ s6 N6. apply L; [apply keeps_lift| |exact N6]. intros b s7 N7.
  assert (G : b <> BDocEnd -> match fetch_branch b s7 with SOk _ s' => last_doc f s' | _ => True end).
  { intros H. pose proof (keeps_branch b H f s7 N7) as K. destruct (fetch_branch b s7); auto. left. apply K. }
  destruct b; try (apply G; discriminate). apply doc_end_fetch, N7.
Qed.

Section S.
Variable T : list N.
Notation core := (core T).
Notation finished := (finished T).
Notation live := (live T).

Lemma nd_quiet L : forall f q, quiet L f q -> (f = 0 -> L = 0) -> nd f q.
Proof.
  intros f q. revert f. induction q as [|x r IH]; intros f Q Z; [exact I|]. cbn in Q. destruct Q as (Lf & Q1 & Q2). split.
  - intros ->. specialize (Z eq_refl). subst L. specialize (Q1 eq_refl). unfold is_node_token, is_doc_end in *. destruct (t_tok x); congruence.
  - apply IH; [exact Q2|]. intros E. apply quiet_low in Q2. lia.
Qed.
(* a token that may be a simple key is followed by no DOCUMENT-END at depth 0 *)
Lemma key_nd es all s : core 0 es all s -> head_may_be_key s = true -> nd (flow_depth es) (s_tokens s).
Proof.
  intros C H. unfold head_may_be_key in H. apply existsb_exists in H as (k & Ik & P). apply andb_prop in P as [P E]. apply N.eqb_eq in E.
  pose proof (c_keys _ _ _ _ _ C) as K. pose proof (c_parsed _ _ _ _ _ C) as CP. pose proof (c_all _ _ _ _ _ C) as CA.
  assert (G : exists L, key_ok T all (s_parsed s) (s_indent s) (ctext s) (smark s) L k).
  { revert Ik. clear - K P. unfold ctext. induction K as [b k0 Hk|l b b' k0 ks Hb Hk K IH]; intros [<-|Ik]; auto.
    - destruct (Hk P) as [_ X]. eauto.
    - destruct Ik.
    - destruct (Hk P) as (_ & _ & X). eauto. }
  destruct G as [L KO]. assert (En : N.to_nat (k_number k) = length es) by (rewrite E, CP; unfold nlen; lia).
  pose proof (ko_level _ _ _ _ _ _ _ _ KO) as KL. pose proof (ko_quiet _ _ _ _ _ _ _ _ KO) as KQ. rewrite En, CA in KL, KQ.
  rewrite firstn_app, Nat.sub_diag, firstn_all, firstn_O, app_nil_r in KL. rewrite skipn_app, Nat.sub_diag, skipn_all in KQ. cbn [skipn app] in KQ.
  rewrite KL. eapply nd_quiet; [exact KQ|]. auto.
Qed.
Lemma stale_top m ks ks' : stale m ks = inl ks' -> match ks with k :: _ => k_possible k = false | [] => True end -> match ks' with k :: _ => k_possible k = false | [] => True end.
Proof.
  destruct ks as [|k ks]; cbn [stale]; [intros [= <-] _; exact I|]. destruct (stale m ks); [|discriminate]. intros H P. rewrite P in H. cbn in H. injection H as <-. exact P.
Qed.
Lemma last_keys f s ks : stale (smark s) (s_keys s) = inl ks -> last_doc f s -> last_doc f (set_keys s ks).
Proof.
  intros E [N|(q & d & Q & N & J)]; [left; exact N|]. right. exists q, d. split; [exact Q|]. split; [exact N|]. destruct J. constructor; auto. cbn. eapply stale_top; eauto.
Qed.
Lemma last_avail f s b : last_doc f s -> last_doc f (set_avail s b).
Proof. intros [N|(q & d & Q & N & J)]; [left; exact N|]. right. exists q, d. split; [exact Q|]. split; [exact N|]. destruct J. constructor; auto. Qed.
Lemma last_empty f s : s_tokens s = [] -> last_doc f s -> nd f (s_tokens s).
Proof. intros E _. rewrite E. exact I. Qed.

Lemma finished_last f es s n s' : finished es s -> last_doc f s -> fetch_more_n n s = SOk tt s' -> last_doc f s'.
Proof.
  intros F L. destruct n as [|n]; [discriminate|]. cbn [fetch_more_n]. destruct (s_tokens s) as [|t q] eqn:Et; [destruct (fi_tokens _ _ _ F); exact Et|].
  unfold sbind at 1. unfold sbind at 1. unfold stale_simple_keys at 1. destruct (stale (smark s) (s_keys s)) as [ks|m] eqn:E; [|discriminate].
  assert (K := stale_all _ _ _ E (fun k I P => proj2 (fi_keys _ _ _ F k I P))).
  assert (H : head_may_be_key (set_keys s ks) = false).
  { unfold head_may_be_key. cbn. apply not_true_is_false. intros H. apply existsb_exists in H as (k & Ik & P). rewrite (K k Ik) in P. discriminate. }
  unfold sbind, get, sret. rewrite H. unfold modify. intros R. injection R as <-. apply last_avail, last_keys; auto.
Qed.
Lemma more_last n : forall es all s s', core 0 es all s -> last_doc (flow_depth es) s -> fetch_more_n n s = SOk tt s' -> last_doc (flow_depth es) s'.
Proof.
  induction n as [|n IH]; intros es all s s' C L R; [discriminate|].
  assert (Step : forall s1, core 0 es all s1 -> nd (flow_depth es) (s_tokens s1) -> (fetch_next_token ~;; fetch_more_n n) s1 = SOk tt s' -> last_doc (flow_depth es) s').
  { intros s1 C1 N1 R1. unfold sbind in R1. pose proof (fetch_next_ok T es all s1 C1) as W. pose proof (last_next _ s1 (c_started _ _ _ _ _ C1) N1) as V. unfold swp in W.
    destruct (fetch_next_token s1) as [[] s2| | |]; try discriminate. destruct W as [[(all' & C2 & _ & _) _]|F2].
    - eapply IH; eauto.
    - eapply finished_last; eauto. }
  cbn [fetch_more_n] in R. destruct (s_tokens s) as [|t q] eqn:Et.
  - unfold sbind at 1 in R. cbn [sret] in R. apply Step with (s1 := s); auto. rewrite Et. exact I.
  - unfold sbind at 1 in R. unfold sbind at 1 in R. unfold stale_simple_keys at 1 in R. destruct (stale (smark s) (s_keys s)) as [ks|m] eqn:E; [|discriminate].
    destruct (core_stale _ _ _ _ _ _ C E) as [C1 _]. pose proof (last_keys _ _ _ E L) as L1. set (s1 := set_keys s ks) in *. clearbody s1.
    unfold sbind, get, sret in R. destruct (head_may_be_key s1) eqn:H.
    + apply Step with (s1 := s1); auto. eapply key_nd; eauto.
    + unfold modify in R. injection R as <-. apply last_avail, L1.
Qed.
End S.

(* the limit on the nesting and the encoding never change *)
Definition fixd {A} (m : sm A) : Prop := forall s, match m s with SOk _ s' => s_nest s' = s_nest s /\ s_enc s' = s_enc s | _ => True end.
Lemma fixd_bind {A B} (m : sm A) (k : A -> sm B) : fixd m -> (forall a, fixd (k a)) -> fixd (sbind m k).
Proof.
  intros H K s. specialize (H s). unfold sbind. destruct (m s) as [a s1| | |]; auto. specialize (K a s1). destruct (k a s1); auto. destruct H, K. split; congruence.
Qed.
Lemma fixd_ret {A} (a : A) : fixd (sret a). Proof. intros s. cbn. auto. Qed.
Lemma fixd_get : fixd get. Proof. intros s. cbn. auto. Qed.
Lemma fixd_modify g : (forall s, s_nest (g s) = s_nest s) -> (forall s, s_enc (g s) = s_enc s) -> fixd (modify g).
Proof. intros H K s. cbn. auto. Qed.
Lemma fixd_lift {A} (m : cm A) : fixd (lift m).
Proof. intros s. unfold lift. destruct (m (s_cur s)); cbn; auto. Qed.
Lemma fixd_insert n t : fixd (queue_insert n t).
Proof. intros s. unfold queue_insert. destruct (_ && _); cbn; auto. Qed.
Lemma fixd_stale : fixd stale_simple_keys.
Proof. intros s. unfold stale_simple_keys. destruct (stale _ _); cbn; auto. Qed.
Lemma fixd_remove : fixd remove_simple_key.
Proof. intros s. unfold remove_simple_key. destruct (s_keys s); [exact I|]. destruct (_ && _); cbn; auto. Qed.
Lemma fixd_decrease : fixd decrease_flow_level.
Proof. intros s. unfold decrease_flow_level. destruct (_ =? _); [auto|]. destruct (s_keys s); cbn; auto. Qed.
Lemma fixd_unroll c : fixd (unroll_indent c).
Proof. intros s. unfold unroll_indent. destruct (in_flow s); [auto|]. destruct (unroll _ _ _ _ _) as [[[i is] q]|]; cbn; auto. Qed.
Ltac fx := repeat match goal with
  | |- fixd (sbind _ _) => apply fixd_bind; [|intros]
  | |- fixd (modify _) => apply fixd_modify; reflexivity
  | |- fixd (allow _) => apply fixd_modify; reflexivity
  | |- fixd (enqueue _) => apply fixd_modify; reflexivity
  | |- fixd (lift _) => apply fixd_lift
  | |- fixd (if ?b then _ else _) => destruct b
  | |- fixd (match ?x with _ => _ end) => destruct x
  | |- fixd (sret _) => apply fixd_ret
  | |- fixd get => apply fixd_get
  | |- fixd (serror _ _) => intros ?; exact I
  | |- fixd (fun _ => SBad) => intros ?; exact I
  | |- fixd (queue_insert _ _) => apply fixd_insert
  | |- fixd stale_simple_keys => apply fixd_stale
  | |- fixd remove_simple_key => apply fixd_remove
  | |- fixd decrease_flow_level => apply fixd_decrease
  | |- fixd (unroll_indent _) => apply fixd_unroll
  end.
Lemma fixd_branch b : fixd (fetch_branch b).
Proof.
  destruct b; cbn [fetch_branch]; unfold fetch_stream_end, fetch_directive, fetch_document_indicator, fetch_flow_collection_start, fetch_flow_collection_end, fetch_flow_entry,
    fetch_block_entry, fetch_key, fetch_value, fetch_anchor, fetch_tag, fetch_block_scalar, fetch_flow_scalar, fetch_plain_scalar, reset_block, fetch_chars, save_simple_key,
    increase_flow_level, block_start, roll_indent; fx. intros s. exact I.
Qed.
Lemma fixd_next : fixd fetch_next_token.
Proof. unfold fetch_next_token, fetch_stream_start. fx. apply fixd_branch. Qed.
Lemma fixd_more n : fixd (fetch_more_n n).
Proof.
  induction n as [|n IH]; intros s; [exact I|]. cbn [fetch_more_n]. match goal with |- match ?m s with _ => _ end => assert (K : fixd m); [|apply K] end.
  fx; [apply fixd_next|apply IH].
Qed.
Lemma scan_fixed s t s' : scan s = ScanToken t s' -> s_nest s' = s_nest s /\ s_enc s' = s_enc s.
Proof.
  unfold scan. destruct (_ || _); [discriminate|]. pose proof (fixd_more (length (c_text (s_cur s)) + 3) s) as K. unfold fetch_more_tokens.
  destruct (s_avail s).
  - destruct (s_tokens s); [discriminate|]. intros E. injection E as <- <-. auto.
  - destruct (fetch_more_n _ s) as [[] s1| | |]; try discriminate. destruct (s_tokens s1); [discriminate|]. intros E. injection E as <- <-. exact K.
Qed.
Lemma scans_fixed s l s' : scans s l s' -> s_nest s' = s_nest s /\ s_enc s' = s_enc s.
Proof. induction 1 as [s|s t s1 l s2 E H IH]; [auto|]. apply scan_fixed in E. destruct E, IH. split; congruence. Qed.

Section L.
Variable T : list N.
Notation core := (core T).
Notation finished := (finished T).
Notation live := (live T).

(* what yaml_parser_scan hands out next *)
Definition handing (es : list token) (s1 : sc) : Prop :=
  s_tokens s1 <> [] /\ ((exists all, core 0 es all s1 /\ head_may_be_key s1 = false) \/ finished es s1) /\ last_doc (flow_depth es) s1.
Lemma scan_hands e es s t s' : live e es s -> last_doc (flow_depth es) s -> scan s = ScanToken t s' ->
  exists s1 t1 q, handing es s1 /\ s_tokens s1 = t1 :: q /\ undeep t = undeep t1 /\ s' = dequeue s1 q (s_ended s1 || is_stream_end (t_tok t1)).
Proof.
  intros L D. unfold scan.
  assert (G : forall s1, handing es s1 -> match s_tokens s1 with [] => ScanBad | t :: q => ScanToken (mkToken (t_tok t) (t_start t) (t_end t) (is_deep s1)) (dequeue s1 q (s_ended s1 || is_stream_end (t_tok t))) end = ScanToken t s' ->
     exists s1 t1 q, handing es s1 /\ s_tokens s1 = t1 :: q /\ undeep t = undeep t1 /\ s' = dequeue s1 q (s_ended s1 || is_stream_end (t_tok t1))).
  { intros s1 R E. destruct (s_tokens s1) as [|t1 q] eqn:Et; [discriminate|]. injection E as <- <-. exists s1, t1, q. auto. }
  destruct L as [nest bad plan -> ->|all C St Av|F St Av|pre m E Cp En Et Er].
  - cbn [s_ended s_error init_scanner s_avail orb]. pose proof (first_fetch T e nest bad plan) as H. unfold swp in H.
    destruct (fetch_more_tokens (init_scanner e nest T bad plan)) as [u s1|er| |]; try contradiction; [|discriminate]. apply G. destruct H as (C & Hk & Et).
    split; [rewrite Et; discriminate|]. split; [left; eauto|]. left. rewrite Et. cbn. auto.
  - rewrite (c_ended _ _ _ _ _ C), (c_error _ _ _ _ _ C), Av. cbn [orb].
    assert (H : swp fetch_more_tokens s (fun _ s' => ready T es s' /\ s_avail s' = true) (eend T)).
    { unfold swp, fetch_more_tokens. pose proof (fetch_more_run T (length (ctext s) + 3) es all s (fun _ s' => ready T es s' /\ s_avail s' = true) C) as H. apply H; [lia|auto]. }
    unfold swp in H. destruct (fetch_more_tokens s) as [[] s1|er| |] eqn:Ef; try contradiction; [|discriminate]. apply G. destruct H as ((Nt & H) & _).
    split; [exact Nt|]. split; [exact H|]. eapply more_last; eauto.
  - rewrite (fi_ended _ _ _ F), (fi_error _ _ _ F), Av. cbn [orb].
    assert (H : swp fetch_more_tokens s (fun _ s' => ready T es s' /\ s_avail s' = true) (eend T)).
    { unfold swp, fetch_more_tokens. replace (length (c_text (s_cur s)) + 3)%nat with (S (length (c_text (s_cur s)) + 2)) by lia.
      exact (finished_stop T es s (fun _ s' => ready T es s' /\ s_avail s' = true) _ F (fun s' R A => conj R A)). }
    unfold swp in H. destruct (fetch_more_tokens s) as [[] s1|er| |] eqn:Ef; try contradiction; [|discriminate]. apply G. destruct H as ((Nt & H) & _).
    split; [exact Nt|]. split; [exact H|]. eapply finished_last; eauto.
  - rewrite En. discriminate.
Qed.
Lemma undeep_tok t t1 : undeep t = undeep t1 -> t_tok t = t_tok t1 /\ t_start t = t_start t1 /\ t_end t = t_end t1.
Proof. intros E. injection E as A B C. auto. Qed.
Lemma flow_after_undeep f t : flow_after f (undeep t) = flow_after f t. Proof. reflexivity. Qed.
Lemma flow_snoc es t : flow_depth (es ++ [t]) = flow_after (flow_depth es) t.
Proof. unfold flow_depth, flow_from. rewrite fold_left_app. reflexivity. Qed.
Lemma hand_last es s1 t1 q b : last_doc (flow_depth es) s1 -> s_tokens s1 = t1 :: q -> last_doc (flow_depth (es ++ [t1])) (dequeue s1 q b).
Proof.
  intros D E. rewrite flow_snoc. destruct D as [N|(q0 & d & Q & N & J)].
  - left. rewrite E in N. apply N.
  - rewrite E in Q. destruct q0 as [|x q0]; cbn in Q; injection Q as -> ->.
    + left. exact I.
    + right. exists q0, d. split; [reflexivity|]. split; [apply N|]. destruct J. constructor; auto.
Qed.
Lemma scans_last e es s l s' : live e es s -> last_doc (flow_depth es) s -> scans s l s' -> last_doc (flow_depth (es ++ map undeep l)) s'.
Proof.
  intros L D H. revert es L D. induction H as [s|s t s1 l s2 H1 H2 IH]; intros es L D; cbn [map]; [rewrite app_nil_r; exact D|].
  destruct (scan_hands _ _ _ _ _ L D H1) as (s3 & t1 & q & (_ & _ & D3) & Et & U & ->). pose proof (scan_step _ _ _ _ L) as K. rewrite H1 in K.
  specialize (IH (es ++ [undeep t]) K). rewrite <- app_assoc in IH. apply IH.
  pose proof (hand_last es s3 t1 q (s_ended s3 || is_stream_end (t_tok t1)) D3 Et) as X. rewrite flow_snoc in *. rewrite flow_after_undeep. destruct (undeep_tok _ _ U) as (U1 & _).
  unfold flow_after in *. rewrite U1. exact X.
Qed.

(* the state after a DOCUMENT-END outside flow collections *)
Record clean (e : encoding) (nest : Z) (l : list token) (d : token) (s : sc) : Prop := {
  k_text : ctext s = skipn (N.to_nat (m_index (t_end d))) T;
  k_at : smark s = t_end d;
  k_index : m_index (t_end d) = m_index (t_start d) + 3;
  k_line : m_line (t_end d) = m_line (t_start d);
  k_enc : s_enc s = e;
  k_nest : s_nest s = nest;
  k_started : s_started s = true;
  k_ended : s_ended s = false;
  k_error : s_error s = None;
  k_flow : s_flow s = 0;
  k_tokens : s_tokens s = [];
  k_parsed : s_parsed s = nlen l + 1;
  k_avail : s_avail s = false;
  k_indents : s_indents s = [];
  k_indent : s_indent s = (-1)%Z;
  k_keys : exists k, s_keys s = [k] /\ k_possible k = false }.
Lemma scans_clean e nest bad plan l s d s' : scans (init_scanner e nest T bad plan) l s -> scan s = ScanToken d s' -> t_tok d = TDocEnd -> flow_depth l = 0 -> clean e nest l d s'.
Proof.
  intros H E Td Fl. assert (L0 : live e [] (init_scanner e nest T bad plan)) by (eapply lv_init; reflexivity).
  assert (D0 : last_doc (flow_depth []) (init_scanner e nest T bad plan)) by (left; exact I).
  pose proof (scans_last _ _ _ _ _ L0 D0 H) as D. pose proof (live_scans _ _ _ _ _ _ L0 H) as L. cbn [app] in *.
  pose proof (scans_fixed _ _ _ H) as [X1 X2]. pose proof (scan_fixed _ _ _ E) as [X3 X4]. cbn in X1, X2.
  assert (Fu : flow_depth (map undeep l) = 0) by (unfold flow_depth; rewrite flow_undeep; exact Fl).
  destruct (scan_hands _ _ _ _ _ L D E) as (s1 & t1 & q & (_ & R & D1) & Et & U & ->). destruct (undeep_tok _ _ U) as (U1 & U2 & U3).
  assert (J : q = [] /\ just s1 t1).
  { destruct D1 as [N|(q0 & d1 & Q & N & J)].
    - rewrite Et, Fu in N. destruct N as [N _]. specialize (N eq_refl). unfold is_doc_end in N. rewrite <- U1, Td in N. discriminate.
    - rewrite Et in Q. destruct q0 as [|x q0]; cbn in Q; injection Q as -> ->; [auto|]. destruct N as [N _]. specialize (N Fu). unfold is_doc_end in N. rewrite <- U1, Td in N. discriminate. }
  destruct J as [-> J]. destruct R as [(all & C & _)|F].
  2:{ exfalso. destruct (fi_all _ _ _ F) as (pre & Ea & _). rewrite Et in Ea. apply app_inj_tail in Ea as [_ ->]. rewrite U1 in Td. discriminate. }
  pose proof (c_flow _ _ _ _ _ C) as CF. rewrite (c_all _ _ _ _ _ C), Et, flow_snoc, Fu in CF. unfold flow_after in CF. rewrite <- U1, Td in CF.
  pose proof (c_ind _ _ _ _ _ C) as CI. pose proof (j_indent _ _ J CF) as JI.
  assert (I2 : s_indents s1 = [] /\ s_indent s1 = (-1)%Z).
  { destruct (s_indents s1) as [|j r]; cbn in CI; [auto|]. destruct CI as [CI1 CI2]. apply indents_low in CI2. lia. }
  destruct I2 as [I2 I3]. pose proof (c_keys _ _ _ _ _ C) as CK. rewrite CF in CK. destruct (keys_0 _ _ _ CK) as (k & Ek & _). pose proof (j_key _ _ J) as JK. rewrite Ek in JK.
  rewrite (j_tok _ _ J). cbn [is_stream_end]. rewrite U2, U3 || idtac. destruct J. constructor; cbn [dequeue s_cur s_enc s_started s_ended s_error s_flow s_tokens s_parsed s_avail s_indents s_indent s_allowed s_keys s_nest]; auto.
  - unfold ctext. cbn. rewrite U3, j_end0. apply adv_text, (c_pos _ _ _ _ _ C).
  - unfold smark. cbn. rewrite U3, j_end0. reflexivity.
  - rewrite U2, U3. assumption.
  - rewrite U2, U3. assumption.
  - cbn in X4. congruence.
  - cbn in X3. congruence.
  - apply (c_started _ _ _ _ _ C).
  - rewrite (c_ended _ _ _ _ _ C). reflexivity.
  - apply (c_error _ _ _ _ _ C).
  - rewrite (c_parsed _ _ _ _ _ C). unfold nlen. rewrite map_length. reflexivity.
  - eauto.
Qed.
End L.
