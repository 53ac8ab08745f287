(* How far the scanner is ahead of the token it hands out, and what the comparison with the
   nesting limit (parser.c:680-713) says about that token. *)
From Verif Require Import Base ReaderModel Utf8Spec CharSpec Types CursorModel ScanModel ScannerModel CursorProofs ScanProofs ScanQuoted ScannerSpec ScannerInv ScannerFetch ScannerBranch ScannerBlock ScannerLoop ScannerFinal SplitDoc LexemeRun LexemeLoop NestSpec.

(* --- what the token scanners return --- *)
Definition cret {A} (P : A -> Prop) (m : cm A) : Prop := forall c, match m c with COk a _ => P a | _ => True end.
Lemma cret_ret {A} (P : A -> Prop) a : P a -> cret P (ret a).
Proof. intros H c. exact H. Qed.
Lemma cret_err {A} (P : A -> Prop) o p : cret P (err o p).
Proof. intros c. exact I. Qed.
Lemma cret_bind {A B} (P : B -> Prop) (m : cm A) (k : A -> cm B) : (forall a, cret P (k a)) -> cret P (bind m k).
Proof. intros H c. unfold bind. destruct (m c) as [a c'| | |]; auto. apply H. Qed.
Lemma cret_bind2 {A B} (P : A -> Prop) (P' : B -> Prop) (m : cm A) (k : A -> cm B) : cret P m -> (forall a, P a -> cret P' (k a)) -> cret P' (bind m k).
Proof. intros H1 H c. unfold bind. specialize (H1 c). destruct (m c) as [a c'| | |]; auto. apply H; auto. Qed.
Ltac cr := repeat (cbv zeta; match goal with
  | |- cret _ (bind _ _) => apply cret_bind; intro
  | |- cret _ (ret _) => apply cret_ret
  | |- cret _ (err _ _) => apply cret_err
  | |- cret _ (if ?b then _ else _) => destruct b
  | |- cret _ (match ?x with _ => _ end) => destruct x
  end).

(* a token that opens and closes nothing *)
Definition neutral (x : token) : Prop := opens x = false /\ is_block_token x = false /\ is_flow_end x = false.
Lemma cret_anchor a : cret neutral (scan_anchor a).
Proof. unfold scan_anchor. cr; destruct a; repeat split. Qed.
Lemma cret_tag f : cret neutral (scan_tag f).
Proof.
  unfold scan_tag. apply cret_bind; intro. apply cret_bind; intro. apply cret_bind; intro.
  apply (cret_bind2 (fun t => exists h s, t = TTag h s)); [cr; eauto|]. intros t (h & s & ->). cr; repeat split.
Qed.
Lemma cret_directive : cret neutral scan_directive.
Proof.
  unfold scan_directive. apply cret_bind; intro. apply cret_bind; intro. apply cret_bind; intro.
  apply (cret_bind2 neutral); [cr; repeat split|]. intros t H. cr. exact H.
Qed.
Lemma cret_flow_scalar b : cret neutral (scan_flow_scalar b).
Proof. unfold scan_flow_scalar. cr; repeat split. Qed.
Lemma cret_block_scalar i b : cret neutral (scan_block_scalar i b).
Proof. unfold scan_block_scalar. cr; repeat split. Qed.
Lemma cret_plain f i : cret (fun r => neutral (fst r)) (scan_plain_scalar f i).
Proof. unfold scan_plain_scalar. cr; repeat split. Qed.

(* --- one step --- *)
Definition wide (x : token) : Prop := is_flow_end x = true -> m_index (t_start x) < m_index (t_end x).
Definition no_block (l : list token) : Prop := Forall (fun x => is_block_token x = false) l.
(* the queue [q'] after a token has been fetched into [q]; [f]: the flow level then *)
Inductive grown (f : N) (q : list token) : list token -> Prop :=
| gr_plain m n x : is_block_token x = false -> wide x -> grown f q (q ++ block_ends m n ++ [x])
| gr_start st x : opens_block st = true -> neutral x -> f = 0 -> grown f q (q ++ [st; x])
| gr_key i m x : neutral x -> grown f q (firstn i q ++ key_tok m :: skipn i q ++ [x])
| gr_map i m x : neutral x -> f = 0 -> no_block (skipn i q) -> grown f q (firstn i q ++ map_tok m :: key_tok m :: skipn i q ++ [x]).

Notation tt1 := (fun _ : serr => True).
Lemma n_remove s (Q : unit -> sc -> Prop) : (forall ks, Q tt (set_keys s ks)) -> sw remove_simple_key s Q tt1.
Proof. intros H. apply sw_remove; auto. Qed.
Lemma n_save s (Q : unit -> sc -> Prop) : (forall ks, Q tt (set_keys s ks)) -> sw save_simple_key s Q tt1.
Proof. intros H. apply sw_save; auto. Qed.
Lemma n_increase s (Q : unit -> sc -> Prop) : (forall ks, Q tt (set_flow (set_keys s ks) (s_flow s + 1))) -> sw increase_flow_level s Q tt1.
Proof. intros H. apply sw_increase; auto. Qed.
Lemma n_decrease s (Q : unit -> sc -> Prop) : (forall ks, Q tt (set_flow (set_keys s ks) (s_flow s - 1))) -> sw decrease_flow_level s Q tt1.
Proof. intros H. apply sw_decrease; auto. Qed.
Lemma unroll_ends m c : forall is i q i' is' q', unroll m c i is q = Some (i', is', q') -> exists n, q' = q ++ block_ends m n /\ length is = (n + length is')%nat.
Proof.
  induction is as [|j is IH]; intros i q i' is' q'; cbn [unroll]; destruct (c <? i)%Z; try discriminate.
  - intros [= <- <- <-]. exists O. rewrite app_nil_r. auto.
  - intros H. apply IH in H as (n & -> & L). exists (S n). rewrite <- app_assoc. cbn. split; [reflexivity|lia].
  - intros [= <- <- <-]. exists O. rewrite app_nil_r. auto.
Qed.
Lemma n_unroll c s (Q : unit -> sc -> Prop) :
  (forall m n i is, length (s_indents s) = (n + length is)%nat -> Q tt (set_tokens (set_indents s i is) (s_tokens s ++ block_ends m n))) -> Q tt s -> sw (unroll_indent c) s Q tt1.
Proof.
  intros H1 H2. unfold sw, unroll_indent. destruct (in_flow s); [exact H2|]. destruct (unroll _ _ _ _ _) as [[[i is] q]|] eqn:U; [|exact I].
  apply unroll_ends in U as (n & -> & L). apply H1. exact L.
Qed.
Lemma n_lift {A} (m : cm A) P s (Q : A -> sc -> Prop) : cret P m -> (forall a c, P a -> Q a (set_cur s c)) -> sw (lift m) s Q tt1.
Proof. intros H HQ. unfold sw, lift. specialize (H (s_cur s)). destruct (m (s_cur s)); auto. Qed.
Lemma neutral_plain x : neutral x -> is_block_token x = false /\ wide x.
Proof. intros (_ & H & E). split; [exact H|]. intros K. congruence. Qed.
Lemma n_chars n k s (Q : unit -> sc -> Prop) :
  (forall c, m_index (c_mark c) = m_index (smark s) + N.of_nat n -> Q tt (set_tokens (set_cur s c) (s_tokens s ++ [mkToken k (smark s) (c_mark c) false]))) -> sw (fetch_chars n k) s Q tt1.
Proof. intros H. apply sw_chars. intros c pre _ _ E. apply H. exact E. Qed.
Lemma grown_one f q x : is_block_token x = false -> wide x -> grown f q (q ++ [x]).
Proof. intros H W. apply (gr_plain f q mark0 0 x H W). Qed.
Lemma n_block_start p t s (Q : unit -> sc -> Prop) : opens_block (mkToken t (smark s) (smark s) false) = true ->
  (forall i is, s_flow s = 0 -> Q tt (set_tokens (set_indents s i is) (s_tokens s ++ [mkToken t (smark s) (smark s) false]))) -> Q tt s -> sw (block_start p t) s Q tt1.
Proof.
  intros O H1 H2. unfold block_start. v1. v1. destruct (in_flow s) eqn:F; [v1; exact H2|]. destruct (negb (s_allowed s)); [exact I|].
  unfold roll_indent. v1. v1. rewrite F. destruct (_ <? _)%Z; [|v1; exact H2]. destruct (INT_MAX <? _); [exact I|]. v1. v1. v1.
  apply H1. apply flow_zero. exact F.
Qed.

Lemma n_roll c n t m s (Q : unit -> sc -> Prop) :
  (forall i is, in_flow s = false -> Q tt (set_tokens (set_indents s i is) (firstn (N.to_nat (n - s_parsed s)) (s_tokens s) ++ mkToken t m m false :: skipn (N.to_nat (n - s_parsed s)) (s_tokens s)))) -> Q tt s ->
  sw (roll_indent c (Some n) t m) s Q tt1.
Proof.
  intros H1 H2. unfold roll_indent. v1. v1. destruct (in_flow s) eqn:F; [v1; exact H2|]. destruct (_ <? _)%Z; [|v1; exact H2]. destruct (INT_MAX <? _); [exact I|].
  v1. v1. unfold sw, queue_insert. match goal with |- context[if ?g then _ else _] => destruct g end; [|exact I]. exact (H1 _ _ eq_refl).
Qed.

Section T.
Variable T : list N.
Notation core := (core T).
Notation at_branch := (at_branch T).
Notation finished := (finished T).
Notation fetched := (fetched T).

Notation quiet := ScannerInv.quiet.
Lemma quiet_no_block L f b l : quiet L f l -> struct f b l -> no_block l.
Proof.
  revert f b. induction l as [|x l IH]; intros f b Q S; [constructor|]. cbn [ScannerInv.quiet struct] in *. destruct Q as (Q1 & Q2 & Q3). destruct S as (_ & _ & S2 & S3).
  constructor; [|eapply IH; eauto]. destruct (is_block_token x) eqn:E; [|reflexivity]. specialize (S2 eq_refl). subst f.
  assert (L = 0) by lia. subst L. specialize (Q2 eq_refl). unfold is_block_token, is_node_token in *. destruct (t_tok x); discriminate.
Qed.
Lemma key_no_block es all s k : core 0 es all s -> In k (s_keys s) -> k_possible k = true -> no_block (skipn (N.to_nat (k_number k)) all).
Proof.
  intros C Ik Pk. destruct (keys_in _ _ _ _ _ (c_keys _ _ _ _ _ C) Ik Pk) as (L & _ & K & _).
  pose proof (ko_quiet _ _ _ _ _ _ _ _ K) as Q. pose proof (g_struct _ _ _ (c_good _ _ _ _ _ C)) as S.
  rewrite <- (firstn_skipn (N.to_nat (k_number k)) all) in S. apply struct_app in S as [_ S].
  change (flow_from 0 (firstn (N.to_nat (k_number k)) all)) with (flow_depth (firstn (N.to_nat (k_number k)) all)) in S. rewrite (ko_level _ _ _ _ _ _ _ _ K) in S.
  eapply quiet_no_block; eauto.
Qed.

Ltac fin := cbn [s_tokens s_flow set_tokens set_cur set_allowed set_keys set_flow set_indents] in *.
Ltac one := fin; apply grown_one; [reflexivity|unfold wide; cbn; try discriminate; intros _; lia].
Lemma insert_key (q : list token) i x y v : (i <= length q)%nat ->
  firstn i (firstn i q ++ x :: skipn i q) ++ y :: skipn i (firstn i q ++ x :: skipn i q) ++ [v] = firstn i q ++ y :: x :: skipn i q ++ [v].
Proof.
  intros L. assert (E : length (firstn i q) = i) by (rewrite firstn_length; lia).
  assert (E1 : firstn i (firstn i q ++ x :: skipn i q) = firstn i q) by (rewrite <- E at 1; apply firstn_all_app).
  assert (E2 : skipn i (firstn i q ++ x :: skipn i q) = x :: skipn i q) by (rewrite <- E at 1; apply skipn_all_app).
  rewrite E1, E2. reflexivity.
Qed.
Lemma branch_grown es all s b : at_branch es all s -> sw (fetch_branch b) s (fun _ s' => grown (s_flow s') (s_tokens s) (s_tokens s')) tt1.
Proof.
  intros B. destruct b; cbn [fetch_branch].
  - unfold fetch_stream_end, reset_block. v1. unfold sw at 1, lift, force_line. v1. v1. apply n_unroll.
    + intros m n i is _. v1. apply n_remove. intros ks. vv. fin. rewrite <- app_assoc. apply gr_plain; [reflexivity|discriminate].
    + v1. apply n_remove. intros ks. vv. one.
  - unfold fetch_directive, reset_block. v1. v1. apply n_unroll.
    + intros m n i is _. v1. apply n_remove. intros ks. v1. v1. eapply n_lift; [apply cret_directive|]. intros x c H. vv. fin. rewrite <- app_assoc.
      apply neutral_plain in H as [H1 H2]. apply gr_plain; auto.
    + v1. apply n_remove. intros ks. v1. v1. eapply n_lift; [apply cret_directive|]. intros x c H. vv. fin. apply neutral_plain in H as [H1 H2]. apply grown_one; auto.
  - unfold fetch_document_indicator, reset_block. v1. v1. apply n_unroll.
    + intros m n i is _. v1. apply n_remove. intros ks. v1. apply n_chars. intros c _. fin. rewrite <- app_assoc. apply gr_plain; [reflexivity|discriminate].
    + v1. apply n_remove. intros ks. v1. apply n_chars. intros c _. one.
  - unfold fetch_document_indicator, reset_block. v1. v1. apply n_unroll.
    + intros m n i is _. v1. apply n_remove. intros ks. v1. apply n_chars. intros c _. fin. rewrite <- app_assoc. apply gr_plain; [reflexivity|discriminate].
    + v1. apply n_remove. intros ks. v1. apply n_chars. intros c _. one.
  - unfold fetch_flow_collection_start. v1. apply n_save. intros ks. v1. apply n_increase. intros ks'. v1. v1. apply n_chars. intros c _. one.
  - unfold fetch_flow_collection_start. v1. apply n_save. intros ks. v1. apply n_increase. intros ks'. v1. v1. apply n_chars. intros c _. one.
  - unfold fetch_flow_collection_end. v1. apply n_remove. intros ks. v1. apply n_decrease. intros ks'. v1. v1. apply n_chars. intros c E. one.
  - unfold fetch_flow_collection_end. v1. apply n_remove. intros ks. v1. apply n_decrease. intros ks'. v1. v1. apply n_chars. intros c E. one.
  - unfold fetch_flow_entry. v1. apply n_remove. intros ks. v1. v1. apply n_chars. intros c _. one.
  - unfold fetch_block_entry. v1. apply n_block_start; [reflexivity| |].
    + intros i is F. v1. apply n_remove. intros ks. v1. v1. apply n_chars. intros c _. fin. rewrite <- app_assoc. apply gr_start; [reflexivity|repeat split|exact F].
    + v1. apply n_remove. intros ks. v1. v1. apply n_chars. intros c _. one.
  - unfold fetch_key. v1. apply n_block_start; [reflexivity| |].
    + intros i is F. v1. apply n_remove. intros ks. v1. v1. v1. v1. apply n_chars. intros c _. fin. rewrite <- app_assoc. apply gr_start; [reflexivity|repeat split|exact F].
    + v1. apply n_remove. intros ks. v1. v1. v1. v1. apply n_chars. intros c _. one.
  - unfold fetch_value. v1. v1. destruct (s_keys s) as [|k ks] eqn:Ek; [exact I|]. v1. destruct (k_possible k) eqn:Pk.
    + v1. unfold sw at 1, queue_insert. destruct ((s_parsed s <=? k_number k) && _) eqn:G; [|exact I]. apply andb_prop in G as [G1 G2].
      apply N.leb_le in G1. apply Nat.leb_le in G2. set (i := N.to_nat (k_number k - s_parsed s)) in *.
      set (s1 := set_tokens s (firstn i (s_tokens s) ++ mkToken TKey (k_mark k) (k_mark k) false :: skipn i (s_tokens s))).
      v1. apply n_roll.
      2:{ v1. v1. v1. apply n_chars. intros c _. fin. unfold s1. fin. rewrite <- app_assoc. cbn [app]. apply (gr_key _ _ i (k_mark k)). repeat split. }
      intros j is F1. v1. v1. v1. apply n_chars. intros c _. fin. unfold s1. fin. fold i.
      rewrite <- app_assoc. cbn [app]. rewrite insert_key by exact G2. apply gr_map; [repeat split|apply flow_zero; exact F1|].
      pose proof (b_core _ _ _ _ B) as C. assert (NB : no_block (skipn (N.to_nat (k_number k)) all)) by (eapply key_no_block; [exact C|rewrite Ek; left; reflexivity|exact Pk]).
      rewrite (c_all _ _ _ _ _ C) in NB. rewrite (c_parsed _ _ _ _ _ C) in G1. unfold i. rewrite (c_parsed _ _ _ _ _ C).
      unfold nlen in *. rewrite (proj2 (split_at es (s_tokens s) (N.to_nat (k_number k)) ltac:(lia))) in NB.
      replace (N.to_nat (k_number k - N.of_nat (length es))) with (N.to_nat (k_number k) - length es)%nat by lia. exact NB.
    + v1. apply n_block_start; [reflexivity| |].
      * intros i is F. v1. apply n_chars. intros c _. fin. rewrite <- app_assoc. apply gr_start; [reflexivity|repeat split|exact F].
      * v1. apply n_chars. intros c _. one.
  - unfold fetch_anchor. v1. apply n_save. intros ks. v1. v1. v1. eapply n_lift; [apply cret_anchor|]. intros x c H. vv. fin. apply neutral_plain in H as [H1 H2]. apply grown_one; auto.
  - unfold fetch_anchor. v1. apply n_save. intros ks. v1. v1. v1. eapply n_lift; [apply cret_anchor|]. intros x c H. vv. fin. apply neutral_plain in H as [H1 H2]. apply grown_one; auto.
  - unfold fetch_tag. v1. apply n_save. intros ks. v1. v1. v1. v1. v1. eapply n_lift; [apply cret_tag|]. intros x c H. vv. fin. apply neutral_plain in H as [H1 H2]. apply grown_one; auto.
  - unfold fetch_block_scalar. v1. apply n_remove. intros ks. v1. v1. v1. v1. v1. eapply n_lift; [apply cret_block_scalar|]. intros x c H. vv. fin. apply neutral_plain in H as [H1 H2]. apply grown_one; auto.
  - unfold fetch_block_scalar. v1. apply n_remove. intros ks. v1. v1. v1. v1. v1. eapply n_lift; [apply cret_block_scalar|]. intros x c H. vv. fin. apply neutral_plain in H as [H1 H2]. apply grown_one; auto.
  - unfold fetch_flow_scalar. v1. apply n_save. intros ks. v1. v1. v1. eapply n_lift; [apply cret_flow_scalar|]. intros x c H. vv. fin. apply neutral_plain in H as [H1 H2]. apply grown_one; auto.
  - unfold fetch_flow_scalar. v1. apply n_save. intros ks. v1. v1. v1. eapply n_lift; [apply cret_flow_scalar|]. intros x c H. vv. fin. apply neutral_plain in H as [H1 H2]. apply grown_one; auto.
  - unfold fetch_plain_scalar. v1. apply n_save. intros ks. v1. v1. v1. v1. v1. eapply n_lift; [apply cret_plain|]. intros x c H. v1.
    destruct (snd x); vv; fin; apply neutral_plain in H as [H1 H2]; apply grown_one; auto.
  - exact I.
Qed.

(* the stacks agree with the tokens fetched *)
Definition level (es : list token) (s : sc) : Prop :=
  s_flow s = flow_depth (es ++ s_tokens s) /\ block_depth (es ++ s_tokens s) = Z.of_nat (length (s_indents s)).
Lemma core_level es all s : core 0 es all s -> level es s.
Proof. intros C. unfold level. rewrite <- (c_all _ _ _ _ _ C). split; [apply (c_flow _ _ _ _ _ C)|apply (c_bd _ _ _ _ _ C)]. Qed.
Lemma flow_app l r : flow_depth (l ++ r) = flow_from (flow_depth l) r.
Proof. unfold flow_depth, flow_from. apply fold_left_app. Qed.
Lemma block_app l r : block_depth (l ++ r) = block_from (block_depth l) r.
Proof. unfold block_depth, block_from. apply fold_left_app. Qed.
Lemma flow_ends m n f : flow_from f (block_ends m n) = f.
Proof. induction n as [|n IH]; [reflexivity|exact IH]. Qed.
Lemma block_ends_down m n : forall b, block_from b (block_ends m n) = (b - Z.of_nat n)%Z.
Proof. induction n as [|n IH]; intros b; [cbn; lia|]. change (block_from (b - 1) (block_ends m n) = (b - Z.of_nat (S n))%Z). rewrite IH. lia. Qed.
Lemma stream_end_level es s : level es s -> sw fetch_stream_end s (fun _ s' => level es s') tt1.
Proof.
  intros [L1 L2]. unfold fetch_stream_end, reset_block. v1. unfold sw at 1, lift, force_line. v1. v1. apply n_unroll.
  - intros m n i is Ln. v1. apply n_remove. intros ks. vv. unfold level. fin. rewrite !app_assoc. split.
    + rewrite flow_app. change (s_flow s = flow_depth ((es ++ s_tokens s) ++ block_ends m n)). rewrite flow_app, flow_ends. exact L1.
    + cbn in Ln. rewrite block_app. change (block_depth ((es ++ s_tokens s) ++ block_ends m n) = Z.of_nat (length is)). rewrite block_app, block_ends_down, L2. lia.
  - v1. apply n_remove. intros ks. vv. unfold level. fin. rewrite !app_assoc. rewrite flow_app, block_app. split; assumption.
Qed.

Lemma sw_and {A} (m : sm A) s (Q Q' : A -> sc -> Prop) E E' : sw m s Q E -> sw m s Q' E' -> sw m s (fun a s' => Q a s' /\ Q' a s') tt1.
Proof. unfold sw. destruct (m s); auto. Qed.
Definition stepped_to (es q : list token) (s s' : sc) : Prop := next_state T es s s' /\ grown (s_flow s') q (s_tokens s') /\ level es s'.
Lemma branch_step es all s b : at_branch es all s -> choose_ok (in_flow s) (ctext s) (smark s) b ->
  swp (fetch_branch b) s (fun _ s' => stepped_to es (s_tokens s) s s') tt1.
Proof.
  intros B H. destruct (branch_eq_end b) as [->|Nb].
  - eapply swp_mono; [eapply swp_both; [eapply fetch_stream_end_ok; exact B|eapply sw_and; [apply (branch_grown _ _ _ BStreamEnd B)|apply (stream_end_level es)]]| |auto].
    + apply (core_level es all), (b_core _ _ _ _ B).
    + cbv beta. intros _ s' (F & G & L). split; [right; exact F|]. auto.
  - eapply swp_mono; [eapply swp_both; [eapply fetch_branch_ok1; eauto|apply (branch_grown _ _ _ b B)]| |auto].
    cbv beta. intros _ s' (F & G). split; [left; exact F|]. split; [exact G|]. destruct F as [(all' & C' & _) _]. eapply core_level; exact C'.
Qed.
Lemma next_step es all s : core 0 es all s ->
  swp fetch_next_token s (fun _ s' => exists m n, stepped_to es (s_tokens s ++ block_ends m n) s s') tt1.
Proof.
  intros C0. unfold fetch_next_token. apply swp_bind, swp_lift.
  eapply wp_mono; [apply (cache_core T _ _ _ 1 C0)| |auto]. intros _ c1 (C1 & H1). cbv beta.
  assert (X1 : ctext (set_cur s c1) = ctext s) by (destruct H1 as (E & _); exact E).
  apply hold_self in H1. w1. w1. rewrite (c_started _ _ _ _ _ C1). cbn [negb].
  apply swp_bind, swp_lift. eapply wp_mono; [eapply (p_scan_to_next_token (ctext (set_cur s c1)) (smark (set_cur s c1)) None); [apply pos_start; exact H1|]| |auto].
  { intros a t' m' c' P. intros. exact (ex_intro _ t' (ex_intro _ m' P)). }
  cbv beta. intros a c2 (t' & m' & P2). w1. w1.
  destruct (pos_core _ _ _ _ _ _ _ _ _ C1 P2) as (_ & _ & A2).
  assert (C2 : core 0 es all (set_allowed (set_cur (set_cur s c1) c2) a)).
  { apply core_allowed, core_cur; [exact C1|exact A2]. }
  assert (X2 : (length (ctext (set_allowed (set_cur (set_cur s c1) c2) a)) <= length (ctext s))%nat).
  { rewrite <- X1. apply adv_len in A2. exact A2. }
  assert (Q2 : s_tokens (set_allowed (set_cur (set_cur s c1) c2) a) = s_tokens s) by reflexivity.
  set (s2 := set_allowed (set_cur (set_cur s c1) c2) a) in *. clearbody s2. clear H1 X1 P2 A2 C1.
  apply swp_bind. eapply swp_err; [|instantiate (1 := eok T); auto]. eapply swp_stale; [exact C2|]. intros ks C3 Fr3.
  assert (X3 : (length (ctext (set_keys s2 ks)) <= length (ctext s))%nat) by exact X2.
  assert (Q3 : s_tokens (set_keys s2 ks) = s_tokens s) by exact Q2.
  set (s3 := set_keys s2 ks) in *. clearbody s3. clear s2 C2 X2 Q2. w1. w1. apply swp_bind.
  assert (Fin : forall all4 s4 m n, core 0 es all4 s4 -> fresh s4 -> (s_flow s4 = 0 -> (s_indent s4 <= Z.of_N (m_column (smark s4)))%Z) ->
     in_flow s4 = in_flow s3 -> (length (ctext s4) <= length (ctext s))%nat -> s_tokens s4 = s_tokens s ++ block_ends m n ->
     swp (lift (cache 4) ~;; b <~ lift (choose (in_flow s3));; fetch_branch b) s4 (fun _ s' => exists m n, stepped_to es (s_tokens s ++ block_ends m n) s s') tt1).
  { intros all4 s4 m n C4 Fr4 I4 F4 X4 Q4. apply swp_bind, swp_lift.
    eapply wp_mono; [apply (cache_core T _ _ _ 4 C4)| |auto]. intros _ c5 (C5 & H5). cbv beta.
    assert (X5 : ctext (set_cur s4 c5) = ctext s4) by (destruct H5 as (E & _); exact E).
    assert (M5 : smark (set_cur s4 c5) = smark s4) by (destruct H5 as (_ & E & _); exact E).
    apply hold_self in H5. apply swp_bind, swp_lift.
    eapply wp_mono; [eapply (p_choose (c_text c5) (c_mark c5) None (in_flow s3)); [apply pos_start; exact H5|]| |auto].
    - intros b Hb. refine (_ : (fun b c => choose_ok (in_flow s3) (c_text c5) (c_mark c5) b /\ c = c5) b c5). auto.
    - cbv beta. intros b c [Hb ->]. change (set_cur (set_cur s4 c5) c5) with (set_cur s4 c5).
      eapply swp_mono; [eapply (branch_step es all4)| |auto].
      + constructor; [exact C5| | |exact H5].
        * unfold fresh in *. rewrite M5. exact Fr4.
        * rewrite M5. exact I4.
      + change (in_flow (set_cur s4 c5)) with (in_flow s4). rewrite F4. exact Hb.
      + cbv beta. intros _ s' (N & G & L). exists m, n. rewrite <- Q4. split; [|auto]. destruct N as [H|H]; [left|right; exact H]. destruct H as [H Le]. split; [exact H|]. rewrite X5 in Le. lia. }
  unfold swp at 1, unroll_indent. destruct (in_flow s3) eqn:F3.
  - eapply (Fin all s3 mark0 O); [exact C3|exact Fr3| |exact F3|exact X3|].
    + intros F0. unfold in_flow in F3. rewrite F0 in F3. discriminate.
    + cbn. rewrite app_nil_r. exact Q3.
  - destruct (core_unroll T 0 es all s3 (Z.of_N (m_column (smark s3))) C3) as (i & is & q & ends & U & CU & Li & _).
    + lia.
    + exact F3.
    + intros k Ik Pk. eapply fresh_column; eauto.
    + rewrite U. apply unroll_ends in U as (n & -> & _). eapply Fin; [exact CU|exact Fr3|intros _; exact Li|exact F3|exact X3|]. cbn. rewrite Q3. reflexivity.
Qed.

(* --- the queue --- *)
Definition closers (l : list token) : N := nlen (filter is_flow_end l).
Lemma closers_app a b : closers (a ++ b) = closers a + closers b.
Proof. unfold closers. rewrite filter_app. apply nlen_app. Qed.
Lemma closers_ends m n : closers (block_ends m n) = 0.
Proof. induction n as [|n IH]; [reflexivity|exact IH]. Qed.
Lemma closers_span lo l hi : sorted lo l hi -> Forall wide l -> closers l + lo <= hi.
Proof.
  revert lo. induction l as [|x l IH]; intros lo S W; cbn [sorted] in S; [cbn; lia|]. inversion W as [|? ? W1 W2]; subst. destruct S as (S1 & S2 & S3).
  specialize (IH _ S3 W2). change (closers (x :: l)) with (closers ([x] ++ l)). rewrite closers_app. unfold closers at 1. cbn [filter].
  destruct (is_flow_end x) eqn:E; [specialize (W1 E); change (nlen [x]) with 1; lia|change (nlen (@nil token)) with 0; lia].
Qed.

Variable G : list token -> Prop.
Hypothesis G_app : forall l r, G l -> G (l ++ r).
Hypothesis G_key : forall a m b, G (a ++ b) -> G (a ++ key_tok m :: b).
Hypothesis G_map : forall a m b, G (a ++ b) -> G (a ++ map_tok m :: b).

Record ahead (es : list token) (s : sc) : Prop := {
  ah_level : level es s;
  ah_wide : Forall wide (s_tokens s);
  ah_closers : closers (s_tokens s) <= 1025;
  ah_start : forall a x b, s_tokens s = a ++ x :: b -> opens_block x = true -> no_block b /\ s_flow s = 0;
  ah_g : G (es ++ s_tokens s) }.
(* the state in which one more token is to be fetched *)
Record wanting (es : list token) (s : sc) : Prop := {
  wa_wide : Forall wide (s_tokens s);
  wa_closers : closers (s_tokens s) <= 1024;
  wa_block : no_block (s_tokens s);
  wa_g : G (es ++ s_tokens s) }.

Lemma wide_other x : is_flow_end x = false -> wide x.
Proof. intros H K. congruence. Qed.
Lemma no_start l a x b : Forall (fun x => opens_block x = false) l -> l = a ++ x :: b -> opens_block x = false.
Proof. intros F ->. rewrite Forall_forall in F. apply F, in_mid. Qed.
Lemma block_no_start x : is_block_token x = false -> opens_block x = false.
Proof. unfold is_block_token, opens_block. destruct (t_tok x); congruence. Qed.
Lemma no_start_ends m n : Forall (fun x => opens_block x = false) (block_ends m n).
Proof. induction n; constructor; auto. Qed.
Lemma no_block_start l : no_block l -> Forall (fun x => opens_block x = false) l.
Proof. apply Forall_impl. exact block_no_start. Qed.
Lemma wide_ends m n : Forall wide (block_ends m n).
Proof. induction n; constructor; auto. apply wide_other. reflexivity. Qed.
(* the only block start of a list *)
Lemma only_start {A} (P : A -> bool) l y r a x b : Forall (fun x => P x = false) l -> Forall (fun x => P x = false) r -> l ++ y :: r = a ++ x :: b -> P x = true -> b = r.
Proof.
  revert a. induction l as [|z l IH]; intros a Hl Hr E Px.
  - destruct a as [|w a]; cbn in E; injection E as -> E; [congruence|]. rewrite E in Hr. rewrite Forall_forall in Hr. rewrite Hr in Px; [discriminate|]. apply in_mid.
  - inversion Hl; subst. destruct a as [|w a]; cbn in E; injection E as -> E; [congruence|]. eapply IH; eauto.
Qed.
Lemma fs_forall {A} (P : A -> Prop) i q : Forall P q -> Forall P (firstn i q) /\ Forall P (skipn i q).
Proof. intros H. rewrite <- (firstn_skipn i q) in H. apply Forall_app in H. exact H. Qed.
Lemma closers_split i q : closers (firstn i q) + closers (skipn i q) = closers q.
Proof. rewrite <- closers_app, firstn_skipn. reflexivity. Qed.
Lemma neutral_closers x : neutral x -> closers [x] = 0.
Proof. intros (_ & _ & H). unfold closers. cbn. rewrite H. reflexivity. Qed.
Lemma closers_one x : closers [x] <= 1.
Proof. unfold closers. cbn. destruct (is_flow_end x); cbn; lia. Qed.
Lemma closers_other x : is_flow_end x = false -> closers [x] = 0.
Proof. intros H. unfold closers. cbn. rewrite H. reflexivity. Qed.

Lemma grown_ahead es s s' m n : wanting es s -> stepped_to es (s_tokens s ++ block_ends m n) s s' -> ahead es s'.
Proof.
  intros W (_ & Gr & L). set (q := s_tokens s ++ block_ends m n) in *.
  assert (Wq : Forall wide q) by (apply Forall_app; split; [apply (wa_wide _ _ W)|apply wide_ends]).
  assert (Cq : closers q <= 1024) by (unfold q; rewrite closers_app, closers_ends; pose proof (wa_closers _ _ W); lia).
  assert (Sq : Forall (fun x => opens_block x = false) q) by (apply Forall_app; split; [apply no_block_start, (wa_block _ _ W)|apply no_start_ends]).
  assert (Gq : G (es ++ q)) by (unfold q; rewrite app_assoc; apply G_app, (wa_g _ _ W)). clearbody q. clear W m n.
  remember (s_tokens s') as q' eqn:Eq. destruct Gr as [m n x Hb Hw|st x Ho Hx Hf|i m x Hx|i m x Hx Hf Hn]; (constructor; [exact L|rewrite <- Eq..]); clear L.
  - repeat (apply Forall_app; split); auto. apply wide_ends.
  - rewrite !closers_app, closers_ends. pose proof (closers_one x). lia.
  - intros a y b E O. exfalso. assert (F : Forall (fun x => opens_block x = false) (q ++ block_ends m n ++ [x])) by (apply Forall_app; split; [exact Sq|]; apply Forall_app; split; [apply no_start_ends|constructor; [apply block_no_start, Hb|constructor]]).
    rewrite (no_start _ _ _ _ F E) in O. discriminate.
  - rewrite app_assoc. apply G_app, Gq.
  - apply Forall_app. split; [exact Wq|]. constructor; [|constructor; [apply neutral_plain, Hx|constructor]]. apply wide_other. unfold opens_block, is_flow_end in *. destruct (t_tok st); discriminate || reflexivity.
  - rewrite closers_app. change [st; x] with ([st] ++ [x]). rewrite closers_app, (neutral_closers x Hx), (closers_other st); [lia|]. unfold opens_block, is_flow_end in *. destruct (t_tok st); discriminate || reflexivity.
  - intros a y b E O. split; [|exact Hf]. apply (only_start opens_block q st [x] a y b) in E; [|exact Sq|constructor; [apply block_no_start, Hx|constructor]|exact O]. subst b. constructor; [apply Hx|constructor].
  - rewrite app_assoc. apply G_app, Gq.
  - destruct (fs_forall _ i _ Wq) as [W1 W2]. apply Forall_app. split; [exact W1|]. constructor; [apply wide_other; reflexivity|]. apply Forall_app. split; [exact W2|]. constructor; [apply neutral_plain, Hx|constructor].
  - pose proof (closers_split i q). rewrite closers_app. change (key_tok m :: skipn i q ++ [x]) with ([key_tok m] ++ skipn i q ++ [x]). rewrite !closers_app, (neutral_closers x Hx), (closers_other (key_tok m) eq_refl). lia.
  - intros a y b E O. exfalso. destruct (fs_forall _ i _ Sq) as [S1 S2]. rewrite (no_start (firstn i q ++ key_tok m :: skipn i q ++ [x]) a y b) in O; [discriminate| |exact E].
    apply Forall_app. split; [exact S1|]. constructor; [reflexivity|]. apply Forall_app. split; [exact S2|]. constructor; [apply block_no_start, Hx|constructor].
  - change (key_tok m :: skipn i q ++ [x]) with ((key_tok m :: skipn i q) ++ [x]). rewrite !app_assoc. apply G_app. rewrite <- app_assoc. rewrite app_assoc. apply G_key. rewrite <- app_assoc, firstn_skipn. exact Gq.
  - destruct (fs_forall _ i _ Wq) as [W1 W2]. apply Forall_app. split; [exact W1|]. constructor; [apply wide_other; reflexivity|]. constructor; [apply wide_other; reflexivity|]. apply Forall_app. split; [exact W2|]. constructor; [apply neutral_plain, Hx|constructor].
  - pose proof (closers_split i q). rewrite closers_app. change (map_tok m :: key_tok m :: skipn i q ++ [x]) with ([map_tok m] ++ [key_tok m] ++ skipn i q ++ [x]). rewrite !closers_app, (neutral_closers x Hx), (closers_other (key_tok m) eq_refl), (closers_other (map_tok m) eq_refl). lia.
  - intros a y b E O. split; [|exact Hf]. destruct (fs_forall _ i _ Sq) as [S1 S2].
    apply (only_start opens_block (firstn i q) (map_tok m) (key_tok m :: skipn i q ++ [x]) a y b) in E; [|exact S1| |exact O].
    + subst b. constructor; [reflexivity|]. apply Forall_app. split; [exact Hn|]. constructor; [apply Hx|constructor].
    + constructor; [reflexivity|]. apply Forall_app. split; [exact S2|]. constructor; [apply block_no_start, Hx|constructor].
  - change (map_tok m :: key_tok m :: skipn i q ++ [x]) with ((map_tok m :: key_tok m :: skipn i q) ++ [x]). rewrite !app_assoc. apply G_app. rewrite <- app_assoc. rewrite app_assoc. apply G_map, G_key. rewrite <- app_assoc, firstn_skipn. exact Gq.
Qed.

Lemma ahead_keys es s ks : ahead es s -> ahead es (set_keys s ks).
Proof. intros []. constructor; auto. Qed.
Lemma ahead_avail es s b : ahead es s -> ahead es (set_avail s b).
Proof. intros []. constructor; auto. Qed.
Lemma empty_wanting es s : s_tokens s = [] -> ahead es s -> wanting es s.
Proof. intros E []. rewrite E in *. constructor; rewrite ?E; auto; try (constructor; fail). Qed.
Lemma key_wanting es all s : core 0 es all s -> fresh s -> head_may_be_key s = true -> ahead es s -> wanting es s.
Proof.
  intros C Fr H A. unfold head_may_be_key in H. apply existsb_exists in H as (k & Ik & H). apply andb_prop in H as [Pk E]. apply N.eqb_eq in E.
  assert (Es : skipn (N.to_nat (k_number k)) all = s_tokens s).
  { rewrite E, (c_parsed _ _ _ _ _ C), (c_all _ _ _ _ _ C). unfold nlen. rewrite Nat2N.id. apply skipn_all_app. }
  constructor; [apply (ah_wide _ _ A)| | |apply (ah_g _ _ A)].
  - destruct (Fr k Ik Pk) as [_ F2]. destruct (keys_in _ _ _ _ _ (c_keys _ _ _ _ _ C) Ik Pk) as (L & _ & K & _).
    destruct (ko_token _ _ _ _ _ _ _ _ K) as (tk & N1 & N2). pose proof (c_sorted _ _ _ _ _ C) as S. rewrite (c_all _ _ _ _ _ C) in S, N1.
    apply sorted_app in S as (mid & _ & S). rewrite E, (c_parsed _ _ _ _ _ C) in N1. unfold nlen in N1. rewrite Nat2N.id in N1.
    rewrite nth_error_app2, Nat.sub_diag in N1 by lia. destruct (s_tokens s) as [|t q] eqn:Et; [discriminate|]. cbn in N1. injection N1 as ->.
    assert (S' : sorted (m_index (t_start tk)) (tk :: q) (m_index (smark s))) by (cbn [sorted] in *; intuition lia).
    pose proof (closers_span _ _ _ S' ltac:(rewrite <- Et; apply (ah_wide _ _ A))) as X. rewrite N2 in X. lia.
  - rewrite <- Es. eapply key_no_block; eauto.
Qed.

Definition ready_ahead (es : list token) (s : sc) : Prop := ready T es s /\ ahead es s.
Lemma finished_ahead es s (Q : unit -> sc -> Prop) n :
  finished es s -> ahead es s -> (forall s', ready_ahead es s' -> Q tt s') -> sw (fetch_more_n (S n)) s Q tt1.
Proof.
  intros F A HQ. change (sw (fetch_more_n (S n)) s Q tt1) with
   (sw (need <~ (match s_tokens s with [] => sret true | _ => stale_simple_keys ~;; s <~ get ;; sret (head_may_be_key s) end) ;;
       if need then fetch_next_token ~;; fetch_more_n n else modify (fun s => set_avail s true)) s Q tt1).
  destruct (s_tokens s) as [|t q] eqn:Et; [destruct (fi_tokens _ _ _ F); exact Et|].
  v1. v1. unfold sw at 1, stale_simple_keys. destruct (stale (smark s) (s_keys s)) as [ks|m] eqn:S; [|exact I].
  assert (K := stale_all _ _ _ S (fun k I P => proj2 (fi_keys _ _ _ F k I P))).
  assert (H : head_may_be_key (set_keys s ks) = false).
  { unfold head_may_be_key. cbn. apply not_true_is_false. intros H. apply existsb_exists in H as (k & I & P).
    rewrite (K k I) in P. discriminate. }
  cbv beta. unfold sw at 1, sbind at 1, get, sret. cbv beta iota. rewrite H. v1. apply HQ. split; [split; [cbn; congruence|]; right|apply ahead_avail, ahead_keys, A].
  apply finished_avail. destruct F. constructor; auto. cbn. intros k I P. rewrite (K k I) in P. discriminate.
Qed.
Lemma swp_sw1 {A} (m : sm A) s (Q Q' : A -> sc -> Prop) E : swp m s Q E -> (forall a s', Q a s' -> Q' a s') -> sw m s Q' tt1.
Proof. unfold swp, sw. destruct (m s); auto. Qed.
Lemma more_ahead n : forall es all s (Q : unit -> sc -> Prop), core 0 es all s -> ahead es s ->
  (forall s', ready_ahead es s' -> Q tt s') -> sw (fetch_more_n n) s Q tt1.
Proof.
  induction n as [|n IH]; intros es all s Q C A HQ; [exact I|].
  assert (Step : forall s1, core 0 es all s1 -> wanting es s1 -> sw (fetch_next_token ~;; fetch_more_n n) s1 Q tt1).
  { intros s1 C1 W1. v1. eapply swp_sw1; [eapply next_step; exact C1|]. intros _ s2 (m & k & H). pose proof (grown_ahead _ _ _ _ _ W1 H) as A2. destruct H as ([[(all' & C2 & _ & _) _]|F2] & _).
    - eapply IH; [exact C2|exact A2|exact HQ].
    - destruct n as [|n']; [exact I|]. eapply finished_ahead; eauto. }
  change (sw (fetch_more_n (S n)) s Q tt1) with
   (sw (need <~ (match s_tokens s with [] => sret true | _ => stale_simple_keys ~;; s <~ get ;; sret (head_may_be_key s) end) ;;
       if need then fetch_next_token ~;; fetch_more_n n else modify (fun s => set_avail s true)) s Q tt1).
  destruct (s_tokens s) as [|t q] eqn:Et.
  - v1. v1. apply Step; [exact C|]. apply empty_wanting; assumption.
  - v1. v1. unfold sw at 1, stale_simple_keys. destruct (stale (smark s) (s_keys s)) as [ks|m] eqn:S; [|exact I].
    destruct (core_stale _ _ _ _ _ _ C S) as [C1 Fr]. unfold sw at 1, sbind at 1, get, sret. cbv beta iota. destruct (head_may_be_key (set_keys s ks)) eqn:H.
    + apply Step; [exact C1|]. eapply key_wanting; [exact C1|exact Fr|exact H|apply ahead_keys, A].
    + v1. apply HQ. split; [split; [cbn; congruence|]; left|apply ahead_avail, ahead_keys, A]. exists all. split; [apply core_avail; exact C1|exact H].
Qed.
Lemma dequeue_ahead es s t q b : s_tokens s = t :: q -> ahead es s -> ahead (es ++ [t]) (dequeue s q b).
Proof.
  intros Et [[L1 L2] W Cl St Gg]. rewrite Et in *. constructor; unfold level; cbn [s_tokens dequeue s_flow s_indents]; rewrite <- ?app_assoc; auto.
  - inversion W; assumption.
  - change (t :: q) with ([t] ++ q) in Cl. rewrite closers_app in Cl. lia.
  - intros a x b' E O. apply (St (t :: a) x b'); [cbn; rewrite E; reflexivity|exact O].
Qed.
Lemma init_ahead e nest bad plan : G [] -> ahead [] (init_scanner e nest T bad plan).
Proof.
  intros H. constructor; cbn; auto.
  - split; reflexivity.
  - discriminate.
  - intros a x b E. destruct a; discriminate.
Qed.
(* one call of yaml_parser_scan: the state in which the token is at the head of the queue *)
Lemma scan_ahead e es s t s' : live T e es s -> ahead es s -> scan s = ScanToken t s' ->
  exists s1 q b, s_tokens s1 = undeep t :: q /\ ahead es s1 /\ t_deep t = is_deep s1 /\ struct 0 0 (es ++ s_tokens s1) /\ s' = dequeue s1 q b.
Proof.
  assert (Rdy : forall s, starts e es -> s_ended s = false -> s_error s = None -> s_avail s = false -> sw fetch_more_tokens s (fun _ s' => ready_ahead es s') tt1 ->
    scan s = ScanToken t s' -> exists s1 q b, s_tokens s1 = undeep t :: q /\ ahead es s1 /\ t_deep t = is_deep s1 /\ struct 0 0 (es ++ s_tokens s1) /\ s' = dequeue s1 q b).
  { clear s. intros s St En Er Av H. unfold scan. rewrite En, Er, Av. cbn [orb]. unfold sw in H. destruct (fetch_more_tokens s) as [u s1|er| |]; try discriminate.
    destruct H as ((Nt & R) & A). destruct (s_tokens s1) as [|x q] eqn:Et; [congruence|]. intros [= <- <-].
    assert (D : t_deep x = false).
    { destruct R as [(all & C & Hk)|F]; [exact (proj2 (proj2 (dequeue_core T _ _ _ _ _ C Hk Et)))|exact (proj1 (dequeue_finished T e _ _ _ _ F St Et))]. }
    assert (U : undeep (mkToken (t_tok x) (t_start x) (t_end x) (is_deep s1)) = x) by (destruct x; cbn in *; subst; reflexivity). rewrite U.
    exists s1, q, (s_ended s1 || is_stream_end (t_tok x)). split; [exact Et|]. split; [exact A|]. split; [reflexivity|]. split; [|reflexivity].
    destruct R as [(all & C & Hk)|F].
    - rewrite <- (c_all _ _ _ _ _ C). apply (g_struct _ _ _ (c_good _ _ _ _ _ C)).
    - destruct (fi_all _ _ _ F) as (pre & -> & Cp). apply (so_struct _ _ _ (complete_ok _ _ _ _ Cp)). }
  intros L A. destruct L as [nest bad plan -> ->|all C St Av|F St Av|pre m E Cp En Et Er].
  - unfold scan. cbn [s_ended s_error init_scanner s_avail orb]. pose proof (first_fetch T e nest bad plan) as H. unfold swp in H.
    destruct (fetch_more_tokens (init_scanner e nest T bad plan)) as [u s1|er| |]; try discriminate.
    destruct H as (C & Hk & Et). rewrite Et. intros [= <- <-]. change (undeep (mkToken (t_tok (start_tok e)) (t_start (start_tok e)) (t_end (start_tok e)) (is_deep s1))) with (start_tok e).
    exists s1, [], (s_ended s1 || false). split; [exact Et|]. split; [|split; [reflexivity|split; [|reflexivity]]].
    + constructor; [eapply core_level; exact C|rewrite Et..].
      * constructor; [discriminate|constructor].
      * discriminate.
      * intros a x b E O. destruct a as [|y [|z a]]; try discriminate E. injection E as <- _. discriminate.
      * apply (G_app [] [start_tok e]). exact (ah_g _ _ A).
    + cbn [app]. rewrite Et. cbn. repeat split; auto; try lia.
  - apply Rdy; auto; [exact (c_ended _ _ _ _ _ C)|exact (c_error _ _ _ _ _ C)|].
    apply (more_ahead (length (c_text (s_cur s)) + 3) es all s (fun _ s' => ready_ahead es s') C A). auto.
  - apply Rdy; auto; [exact (fi_ended _ _ _ F)|exact (fi_error _ _ _ F)|].
    unfold fetch_more_tokens, sw. replace (length (c_text (s_cur s)) + 3)%nat with (S (length (c_text (s_cur s)) + 2)) by lia.
    apply (finished_ahead es s (fun _ s' => ready_ahead es s') _ F A). auto.
  - unfold scan. rewrite En. discriminate.
Qed.
Lemma ahead_scans e es s l s' : live T e es s -> ahead es s -> scans s l s' -> ahead (es ++ map undeep l) s'.
Proof.
  intros L A H. revert es L A. induction H as [s|s t s1 l s2 H1 H2 IH]; intros es L A; cbn [map]; [rewrite app_nil_r; exact A|].
  pose proof (scan_step _ _ _ _ L) as K. rewrite H1 in K. destruct (scan_ahead _ _ _ _ _ L A H1) as (s0 & q & b & Et & A0 & _ & _ & ->).
  specialize (IH _ K (dequeue_ahead _ _ _ _ b Et A0)). rewrite <- app_assoc in IH. exact IH.
Qed.
End T.

Lemma scans_split a : forall s b s', scans s (a ++ b) s' -> exists s1, scans s a s1 /\ scans s1 b s'.
Proof.
  induction a as [|x a IH]; intros s b s' H; [exists s; split; [constructor|exact H]|]. inversion H as [|? ? s1 ? ? H1 H2]; subst.
  destruct (IH _ _ _ H2) as (s2 & H3 & H4). exists s2. split; [econstructor; eauto|exact H4].
Qed.
Lemma scans_cons s x b s' : scans s (x :: b) s' -> exists s1, scan s = ScanToken x s1 /\ scans s1 b s'.
Proof. intros H. inversion H; subst. eauto. Qed.
Lemma nesting_undeep l : nesting (map undeep l) = nesting l.
Proof. unfold nesting, flow_depth, block_depth. rewrite flow_undeep, block_undeep. reflexivity. Qed.
Definition any (l : list token) : Prop := True.

Section Run.
Variables (e : encoding) (nest : Z) (T : list N) (bad : bool) (plan : list nat).
Notation start := (init_scanner e nest T bad plan).

(* the state in which a token was handed out *)
Lemma handed a x b s : scans start (a ++ x :: b) s ->
  exists s1 s2 q d, s_tokens s1 = undeep x :: q /\ ahead any (map undeep a) s1 /\ struct 0 0 (map undeep a ++ undeep x :: q) /\
    s2 = dequeue s1 q d /\ live T e (map undeep (a ++ [x])) s2 /\ scans s2 b s /\
    (t_deep x = true <-> (nest <= nesting (map undeep a ++ undeep x :: q))%Z).
Proof.
  intros H. apply scans_split in H as (s0 & H1 & H2). apply scans_cons in H2 as (s2 & H2 & H3).
  pose proof (scans_live T e nest bad plan a s0 H1) as L. assert (A : ahead any (map undeep a) s0).
  { apply (ahead_scans T any ltac:(unfold any; auto) ltac:(unfold any; auto) ltac:(unfold any; auto) e [] start a s0); [eapply lv_init; reflexivity| |exact H1].
    apply init_ahead. exact I. }
  destruct (scan_ahead T any ltac:(unfold any; auto) ltac:(unfold any; auto) ltac:(unfold any; auto) e _ _ _ _ L A H2) as (s1 & q & d & Et & A1 & D & S & E).
  exists s1, s2, q, d. split; [exact Et|]. split; [exact A1|]. split; [rewrite <- Et; exact S|]. split; [exact E|].
  split; [pose proof (scan_step _ _ _ _ L) as K; rewrite H2 in K; rewrite map_app; exact K|]. split; [exact H3|].
  assert (Nn : s_nest s1 = nest).
  { transitivity (s_nest s2); [rewrite E; reflexivity|]. rewrite (proj1 (scan_fixed _ _ _ H2)). rewrite (proj1 (scans_fixed _ _ _ H1)). reflexivity. }
  destruct (ah_level _ _ _ A1) as [L1 L2]. rewrite Et in L1, L2. unfold nesting. rewrite <- L1, L2, D. unfold is_deep. rewrite Nn.
  destruct (Z.ltb_spec (Z.of_nat (length (s_indents s1))) (nest - Z.of_N (s_flow s1))); cbn; split; intros; try lia; try discriminate; reflexivity.
Qed.

Lemma no_block_depth l b : no_block l -> block_from b l = b.
Proof.
  revert b. induction l as [|x l IH]; intros b H; [reflexivity|]. inversion H; subst. change (block_from (block_after b x) l = b).
  rewrite IH by assumption. unfold block_after, is_block_token in *. destruct (t_tok x); congruence.
Qed.
Lemma undeep_opens x : opens_block (undeep x) = opens_block x. Proof. reflexivity. Qed.

Lemma block_exact a x b s : scans start (a ++ x :: b) s -> opens_block x = true -> t_deep x = true <-> (nest <= nesting (a ++ [x]))%Z.
Proof.
  intros H O. apply handed in H as (s1 & s2 & q & d & Et & A & S & _ & _ & _ & D). rewrite D.
  destruct (ah_start _ _ _ A [] (undeep x) q Et O) as [Nb F]. pose proof (proj1 (ah_level _ _ _ A)) as L1. rewrite Et in L1.
  rewrite <- (nesting_undeep (a ++ [x])), map_app. cbn [map].
  change (map undeep a ++ undeep x :: q) with (map undeep a ++ [undeep x] ++ q) in *. rewrite app_assoc in *. unfold nesting. rewrite <- L1, F.
  rewrite block_app, no_block_depth by exact Nb.
  assert (F0 : flow_depth (map undeep a ++ [undeep x]) = 0).
  { rewrite <- app_assoc in S. apply struct_app in S as [_ S]. cbn [app struct] in S. destruct S as (_ & _ & S & _).
    assert (Bx : is_block_token (undeep x) = true) by (unfold opens_block, is_block_token, undeep in *; cbn; destruct (t_tok x); discriminate || reflexivity).
    specialize (S Bx). rewrite flow_app. unfold flow_depth. rewrite S. cbn. unfold flow_after, is_block_token in *. destruct (t_tok (undeep x)); try discriminate; reflexivity. }
  rewrite F0. reflexivity.
Qed.

Lemma closers_down l : forall f, f <= flow_from f l + closers l.
Proof.
  induction l as [|x l IH]; intros f; [cbn; lia|]. change (x :: l) with ([x] ++ l). rewrite closers_app. change (flow_from f ([x] ++ l)) with (flow_from (flow_after f x) l).
  specialize (IH (flow_after f x)). unfold closers at 1. cbn [filter]. unfold flow_after, is_flow_end in *. destruct (t_tok x); unfold nlen; cbn [length]; lia.
Qed.
Lemma block_find l : no_block l \/ exists a y b, l = a ++ y :: b /\ is_block_token y = true.
Proof.
  induction l as [|x l IH]; [left; constructor|]. destruct (is_block_token x) eqn:E; [right; exists [], x, l; auto|].
  destruct IH as [IH|(a & y & b & -> & H)]; [left; constructor; auto|right; exists (x :: a), y, b; auto].
Qed.
Lemma struct_blocks l : struct 0 0 l -> (0 <= block_depth l)%Z.
Proof. intros H. replace l with (l ++ []) in H by apply app_nil_r. apply struct_app in H as [_ H]. exact (struct_low _ _ _ H). Qed.

Lemma bounded l : forall s, scans start l s -> accepted l -> (block_depth l <= Z.max 0 (nest - 1))%Z /\ (nesting l <= Z.max 0 (nest + 1024))%Z.
Proof.
  induction l as [|x a IH] using rev_ind; intros s H Ac; [cbn; lia|].
  assert (Pre : exists s0, scans start a s0) by (apply scans_split in H as (s0 & H & _); eauto). destruct Pre as [s0 Pre].
  destruct (IH s0 Pre) as [B1 B2]; [intros t I; apply Ac; apply in_app_iff; auto|]. clear IH Pre s0.
  assert (Ax : opens x = true -> t_deep x = false) by (apply Ac; apply in_app_iff; right; left; reflexivity).
  destruct (opens_block x) eqn:O.
  - pose proof (block_exact a x [] s H O) as X. assert (Dx : t_deep x = false) by (apply Ax; unfold opens, opens_block in *; destruct (t_tok x); congruence).
    assert (Lt : ~ (nest <= nesting (a ++ [x]))%Z) by (intros K; apply X in K; congruence).
    apply handed in H as (s1 & s2 & q & d & Et & A & S & _). unfold nesting in *. lia.
  - destruct (opens x) eqn:Of.
    + specialize (Ax eq_refl). apply handed in H as (s1 & s2 & q & d & Et & A & S & _ & _ & _ & D).
      assert (Lt : ~ (nest <= nesting (map undeep a ++ undeep x :: q))%Z) by (intros K; apply D in K; congruence). clear D.
      assert (Bx : block_depth (a ++ [x]) = block_depth a) by (rewrite block_app; cbn; unfold block_after, opens_block, opens in *; destruct (t_tok x); congruence).
      rewrite <- (nesting_undeep (a ++ [x])), map_app. cbn [map]. rewrite Bx. split; [exact B1|].
      pose proof (ah_closers _ _ _ A) as Cl. rewrite Et in Cl. change (undeep x :: q) with ([undeep x] ++ q) in Cl. rewrite closers_app in Cl.
      assert (Bu : block_depth (map undeep a ++ [undeep x]) = block_depth a) by (change [undeep x] with (map undeep [x]); rewrite <- map_app; unfold block_depth at 1; rewrite block_undeep; exact Bx).
      change (map undeep a ++ undeep x :: q) with (map undeep a ++ [undeep x] ++ q) in *. rewrite app_assoc in *. set (p := map undeep a ++ [undeep x]) in *. clearbody p.
      pose proof (struct_blocks _ S) as P0. unfold nesting in Lt |- *. rewrite Bu.
      destruct (block_find q) as [Nb|(c & y & r & -> & By)].
      * rewrite block_app, (no_block_depth q) in Lt by exact Nb. rewrite flow_app in Lt. pose proof (closers_down q (flow_depth p)). rewrite Bu in Lt. lia.
      * apply struct_app in S as [_ S]. apply struct_app in S as [_ S]. cbn [struct] in S. destruct S as (_ & _ & S & _). specialize (S By).
        pose proof (closers_down c (flow_depth p)) as K. unfold flow_depth at 2 in K. rewrite S in K. rewrite closers_app in Cl. lia.
    + assert (Bx : (block_depth (a ++ [x]) <= block_depth a)%Z) by (rewrite block_app; cbn; unfold block_after, opens_block in *; destruct (t_tok x); try discriminate; lia).
      assert (Fx : flow_depth (a ++ [x]) <= flow_depth a) by (rewrite flow_app; cbn; unfold flow_after, opens in *; destruct (t_tok x); try discriminate; lia).
      unfold nesting in *. lia.
Qed.

Lemma reaches_app n l r : reaches n l -> reaches n (l ++ r).
Proof. intros (p & q & -> & H). exists p, (q ++ r). rewrite app_assoc. auto. Qed.
Lemma insert_split {A} (a b p r : list A) : a ++ b = p ++ r -> (exists c, p = a ++ c /\ b = c ++ r) \/ (exists c, a = p ++ c /\ r = c ++ b).
Proof.
  revert p. induction a as [|y a IH]; intros p E; [left; exists p; auto|]. destruct p as [|z p]; [right; exists (y :: a); auto|].
  cbn in E. injection E as -> E. destruct (IH _ E) as [(c & -> & ->)|(c & -> & ->)]; [left|right]; exists c; auto.
Qed.
Lemma block_from_add l : forall b k, block_from (b + k) l = (block_from b l + k)%Z.
Proof. induction l as [|x l IH]; intros b k; [reflexivity|]. change (block_from (block_after (b + k) x) l = (block_from (block_after b x) l + k)%Z). rewrite <- IH. f_equal. unfold block_after. destruct (t_tok x); lia. Qed.
Lemma reaches_insert n a x b : (t_tok x = TKey \/ t_tok x = TBlockMapStart) -> reaches n (a ++ b) -> reaches n (a ++ x :: b).
Proof.
  intros Hx (p & r & E & H). destruct (insert_split a b p r E) as [(c & -> & ->)|(c & -> & ->)].
  - exists (a ++ x :: c), r. split; [rewrite <- app_assoc; reflexivity|]. eapply Z.le_trans; [exact H|]. unfold nesting. change (x :: c) with ([x] ++ c). rewrite !block_app, !flow_app.
    assert (F : flow_from (flow_depth a) ([x] ++ c) = flow_from (flow_depth a) c) by (change (flow_from (flow_after (flow_depth a) x) c = flow_from (flow_depth a) c); f_equal; unfold flow_after; destruct Hx as [-> | ->]; reflexivity).
    rewrite F. change (block_from (block_depth a) ([x] ++ c)) with (block_from (block_after (block_depth a) x) c).
    unfold block_after. destruct Hx as [-> | ->]; [lia|]. rewrite block_from_add. lia.
  - exists p, (c ++ x :: b). split; [rewrite app_assoc; reflexivity|exact H].
Qed.
Lemma reaches_undeep n l : reaches n (map undeep l) -> reaches n l.
Proof.
  intros (p & r & E & H). exists (firstn (length p) l), (skipn (length p) l). split; [symmetry; apply firstn_skipn|].
  assert (Ep : map undeep (firstn (length p) l) = p) by (rewrite <- firstn_map, E; apply firstn_all_app).
  rewrite <- Ep, nesting_undeep in H. exact H.
Qed.
Lemma flagged l x s : scans start l s -> In x l -> t_deep x = true -> reaches nest (map undeep l ++ s_tokens s).
Proof.
  intros H Ix Dx. apply in_split in Ix as (a & b & ->). apply handed in H as (s1 & s2 & q & d & Et & A & S & E & L & H & D). apply D in Dx.
  assert (A1 : ahead (reaches nest) (map undeep a) s1).
  { destruct A as [A1 A2 A3 A4 _]. constructor; auto. rewrite Et. eexists _, []. rewrite app_nil_r. split; [reflexivity|exact Dx]. }
  assert (A2 : ahead (reaches nest) (map undeep a ++ [undeep x]) (dequeue s1 q d)) by (apply (dequeue_ahead (reaches nest) (reaches_app nest) (fun a m b => reaches_insert nest a (key_tok m) b (or_introl eq_refl)) (fun a m b => reaches_insert nest a (map_tok m) b (or_intror eq_refl))); assumption). rewrite <- E in A2. rewrite map_app in L. 
  pose proof (ahead_scans T (reaches nest) (reaches_app nest) (fun a m b => reaches_insert nest a (key_tok m) b (or_introl eq_refl)) (fun a m b => reaches_insert nest a (map_tok m) b (or_intror eq_refl)) e _ _ _ _ L A2 H) as A3.
  pose proof (ah_g _ _ _ A3) as R. rewrite map_app. cbn [map] in R |- *. rewrite <- ?app_assoc in R. rewrite <- ?app_assoc. rewrite <- ?app_assoc in R. cbn [app] in R |- *. exact R.
Qed.
Lemma ended_scans n : forall s l, scan_all n s = (l, Ended) -> exists s', scans s l s' /\ (exists s'', scan s' = ScanNothing s'' /\ s_error s'' = None).
Proof.
  induction n as [|n IH]; intros s l; cbn [scan_all]; [discriminate|]. destruct (scan s) as [t s1|s1|s1| |] eqn:E; try discriminate.
  - destruct (scan_all n s1) as [l1 o] eqn:R. intros [= <- ->]. destruct (IH _ _ R) as (s' & H1 & H2). exists s'. split; [econstructor; eauto|exact H2].
  - intros [= <- H]. exists s. split; [constructor|]. exists s1. split; [exact E|]. destruct (s_error s1); [discriminate|reflexivity].
  - destruct (s_error s1); discriminate.
Qed.
Lemma refused_deep n l x : scan_all n start = (l, Ended) -> In x l -> t_deep x = true -> reaches nest l.
Proof.
  intros H Ix Dx. apply ended_scans in H as (s & H & s2 & N1 & N2). pose proof (flagged l x s H Ix Dx) as R.
  apply scans_live in H as L. pose proof (scan_step _ _ _ _ L) as K. rewrite N1 in K. destruct K as (-> & En & Er).
  assert (Et : s_tokens s = []).
  { destruct L as [nest' bad' plan' _ Es|all C _ _|F _ _|pre m _ _ _ Et _].
    - rewrite Es in En. discriminate.
    - rewrite (c_ended _ _ _ _ _ C) in En. discriminate.
    - rewrite (fi_ended _ _ _ F) in En. discriminate.
    - exact Et. }
  rewrite Et, app_nil_r in R. apply reaches_undeep. exact R.
Qed.
End Run.
