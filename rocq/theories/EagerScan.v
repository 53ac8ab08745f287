(* Fetching tokens one after the other without handing them out, and what
   yaml_parser_scan then delivers. *)
From Verif Require Import Base ReaderModel Utf8Spec CharSpec Types CursorModel ScanModel ScannerModel CursorProofs ScanProofs ScannerSpec ScannerInv ScannerFinal PlanFree FullRun.

(* The state in which the tokens [pre] of the queue have been handed out. *)
Definition handed (pre q : list token) (s : sc) : sc :=
  mkSc (s_cur s) (s_enc s) (s_started s) (s_ended s) (s_error s) (s_flow s) q (nlen pre) (s_avail s) (s_indents s) (s_indent s) (s_allowed s) (s_keys s) (s_nest s).

Section Commute.
Variable pre : list token.
Definition late_keys (ks : list skey) : Prop := Forall (fun k => k_possible k = true -> nlen pre <= k_number k) ks.
Definition comm {A} (m : sm A) : Prop := forall q s a s', s_tokens s = pre ++ q -> s_parsed s = 0 -> late_keys (s_keys s) -> m s = SOk a s' ->
  exists q', s_tokens s' = pre ++ q' /\ s_parsed s' = 0 /\ late_keys (s_keys s') /\ m (handed pre q s) = SOk a (handed pre q' s').

Lemma comm_bind {A B} (m : sm A) (k : A -> sm B) : comm m -> (forall a, comm (k a)) -> comm (sbind m k).
Proof.
  intros H K q s a s' E P L R. unfold sbind in *. destruct (m s) as [x s1| | |] eqn:M; try discriminate.
  destruct (H q s x s1 E P L M) as (q1 & E1 & P1 & L1 & ->). exact (K x q1 s1 a s' E1 P1 L1 R).
Qed.
Lemma comm_get {B} (k : sc -> sm B) : (forall q s, k (handed pre q s) = k s) -> (forall s, comm (k s)) -> comm (sbind get k).
Proof. intros E K q s a s' T P L R. unfold sbind, get in *. rewrite E. exact (K s q s a s' T P L R). Qed.
(* the same where the continuation needs to know the keys *)
Lemma comm_get_keys {B} (k : sc -> sm B) : (forall q s, k (handed pre q s) = k s) -> (forall s, late_keys (s_keys s) -> comm (k s)) -> comm (sbind get k).
Proof. intros E K q s a s' T P L R. unfold sbind, get in *. rewrite E. exact (K s L q s a s' T P L R). Qed.
Lemma comm_modify f : (forall q s, f (handed pre q s) = handed pre q (f s)) -> (forall s, s_tokens (f s) = s_tokens s) -> (forall s, s_parsed (f s) = s_parsed s) ->
  (forall s, late_keys (s_keys s) -> late_keys (s_keys (f s))) -> comm (modify f).
Proof.
  intros E T P K q s a s' Es Ps Ls R. unfold modify in *. injection R as <- <-. exists q. rewrite T, P, E. repeat split; auto.
Qed.
Lemma comm_ret {A} (a : A) : comm (sret a).
Proof. intros q s x s' E P L R. injection R as <- <-. exists q. auto. Qed.
Lemma comm_error {A} ctx p : comm (@serror A ctx p).
Proof. intros q s x s' E P L R. discriminate R. Qed.
Lemma comm_bad {A} : comm (fun _ => @SBad A).
Proof. intros q s x s' E P L R. discriminate R. Qed.
Lemma comm_lift {A} (m : cm A) : comm (lift m).
Proof.
  intros q s x s' E P L R. unfold lift in *. cbn [handed s_cur]. destruct (m (s_cur s)) as [a c| | |]; try discriminate. injection R as <- <-. exists q. auto.
Qed.
Lemma comm_allow b : comm (allow b).
Proof. apply comm_modify; auto. Qed.
Lemma comm_enqueue t : comm (enqueue t).
Proof.
  intros q s x s' E P L R. unfold enqueue, modify in *. injection R as <- <-. exists (q ++ [t]). cbn [set_tokens s_tokens s_parsed s_keys]. rewrite E, <- app_assoc. auto.
Qed.
Lemma comm_insert n t : nlen pre <= n -> comm (queue_insert n t).
Proof.
  intros Hn q s x s' E P L R. unfold queue_insert in *. rewrite P in R. cbn [handed s_parsed s_tokens].
  destruct (0 <=? n) eqn:Z0; [cbn [andb] in R|discriminate]. rewrite N.sub_0_r in R.
  destruct (N.to_nat n <=? length (s_tokens s))%nat eqn:Z1; [|discriminate]. injection R as <- <-.
  apply Nat.leb_le in Z1. rewrite E in Z1. rewrite app_length in Z1.
  assert (I : (N.to_nat n = length pre + N.to_nat (n - nlen pre))%nat) by (unfold nlen in *; lia).
  destruct (N.leb_spec (nlen pre) n); [cbn [andb]|lia].
  destruct (Nat.leb_spec (N.to_nat (n - nlen pre)) (length q)); [|lia].
  exists (firstn (N.to_nat (n - nlen pre)) q ++ t :: skipn (N.to_nat (n - nlen pre)) q). cbn [set_tokens s_tokens s_parsed s_keys].
  repeat split; auto. rewrite E, I, firstn_app_2, skipn_app. replace (length pre + N.to_nat (n - nlen pre) - length pre)%nat with (N.to_nat (n - nlen pre)) by lia.
  rewrite (skipn_all2 pre) by lia. rewrite <- app_assoc. reflexivity.
Qed.
Lemma stale_late m : forall ks ks', stale m ks = inl ks' -> late_keys ks -> late_keys ks'.
Proof.
  induction ks as [|k ks IH]; intros ks' H L; cbn [stale] in H; [injection H as <-; constructor|].
  destruct (stale m ks) as [r|]; [|discriminate]. apply Forall_inv in L as L1. apply Forall_inv_tail in L as L2.
  destruct (k_possible k && _); [destruct (k_required k); [discriminate|]|]; injection H as <-; (constructor; [first [discriminate|exact L1]|apply IH; auto]).
Qed.
Lemma comm_stale : comm stale_simple_keys.
Proof.
  intros q s x s' E P L R. unfold stale_simple_keys in *. change (smark (handed pre q s)) with (smark s). change (s_keys (handed pre q s)) with (s_keys s).
  destruct (stale (smark s) (s_keys s)) as [ks|] eqn:K; [|discriminate]. injection R as <- <-. exists q. repeat split; auto. cbn. eapply stale_late; eauto.
Qed.
Lemma comm_remove : comm remove_simple_key.
Proof.
  intros q s x s' E P L R. unfold remove_simple_key in *. change (smark (handed pre q s)) with (smark s). change (s_keys (handed pre q s)) with (s_keys s).
  destruct (s_keys s) as [|k ks] eqn:K; [discriminate|]. destruct (_ && _); [discriminate|]. injection R as <- <-. exists q. repeat split; auto.
  cbn. apply Forall_inv_tail in L. constructor; [discriminate|auto].
Qed.
Lemma late_tl ks : late_keys ks -> late_keys (tl ks).
Proof. destruct ks; [auto|]. apply Forall_inv_tail. Qed.
Lemma comm_save : comm save_simple_key.
Proof.
  intros q s x s' E P L R. unfold save_simple_key in *. unfold sbind at 1. unfold sbind in R at 1. cbn [get] in *.
  change (s_allowed (handed pre q s)) with (s_allowed s). destruct (s_allowed s); [|injection R as <- <-; exists q; auto].
  change (in_flow (handed pre q s)) with (in_flow s). change (s_indent (handed pre q s)) with (s_indent s). change (smark (handed pre q s)) with (smark s).
  cbn [handed s_parsed s_tokens]. fold (handed pre q s). replace (s_parsed s + nlen (s_tokens s)) with (nlen pre + nlen q) in R by (rewrite P, E, nlen_app; lia).
  revert R. match goal with |- ?m s = _ -> _ => assert (C : comm m) end.
  { apply comm_bind; [exact comm_remove|]. intros _. apply comm_modify; auto. intros s1 L1. cbn. constructor; [cbn; lia|]. apply late_tl. exact L1. }
  intros R. exact (C q s x s' E P L R).
Qed.
Create HintDb cmm discriminated.
Hint Resolve comm_ret comm_error comm_bad comm_allow comm_enqueue comm_stale comm_remove comm_save comm_lift : cmm.
Ltac cmm :=
  repeat (intros; match goal with
  | |- comm (sbind get _) => apply comm_get; [reflexivity|]
  | |- comm (sbind _ _) => apply comm_bind
  | |- comm (modify _) => apply comm_modify; auto
  | |- comm (if ?b then _ else _) => destruct b
  | |- comm (match ?x with _ => _ end) => destruct x
  | |- _ => solve [auto with cmm]
  end).
Lemma comm_increase : comm increase_flow_level.
Proof. unfold increase_flow_level. cmm. cbn. constructor; [discriminate|auto]. Qed.
Lemma comm_decrease : comm decrease_flow_level.
Proof.
  intros q s x s' E P L R. unfold decrease_flow_level in *. change (s_flow (handed pre q s)) with (s_flow s). change (s_keys (handed pre q s)) with (s_keys s).
  destruct (s_flow s =? 0); [injection R as <- <-; exists q; auto|]. destruct (s_keys s) eqn:K; [discriminate|]. injection R as <- <-. exists q. repeat split; auto.
  cbn. apply Forall_inv_tail in L. exact L.
Qed.
Lemma comm_roll_none c t m : comm (roll_indent c None t m).
Proof. unfold roll_indent. cmm. Qed.
Lemma comm_roll_some c n t m : nlen pre <= n -> comm (roll_indent c (Some n) t m).
Proof. intros H. unfold roll_indent. cmm. intros _. apply comm_insert. exact H. Qed.
Lemma unroll_pre m col : forall is i p q, unroll m col i is (p ++ q) =
  match unroll m col i is q with Some (i', is', q') => Some (i', is', p ++ q') | None => None end.
Proof.
  induction is as [|j is IH]; intros i p q; cbn [unroll]; destruct (col <? i)%Z; try reflexivity. rewrite <- app_assoc. apply IH.
Qed.
Lemma comm_unroll c : comm (unroll_indent c).
Proof.
  intros q s x s' E P L R. unfold unroll_indent in *. change (in_flow (handed pre q s)) with (in_flow s). change (smark (handed pre q s)) with (smark s).
  change (s_indent (handed pre q s)) with (s_indent s). change (s_indents (handed pre q s)) with (s_indents s). change (s_tokens (handed pre q s)) with q.
  destruct (in_flow s); [injection R as <- <-; exists q; auto|]. rewrite E, unroll_pre in R.
  destruct (unroll (smark s) c (s_indent s) (s_indents s) q) as [[[i is] q']|]; [|discriminate]. injection R as <- <-. exists q'. auto.
Qed.
Hint Resolve comm_increase comm_decrease comm_roll_none comm_unroll : cmm.
Lemma comm_reset : comm reset_block. Proof. unfold reset_block. cmm. Qed.
Hint Resolve comm_reset : cmm.
Lemma comm_chars n t : comm (fetch_chars n t). Proof. unfold fetch_chars. cmm. Qed.
Hint Resolve comm_chars : cmm.
Lemma comm_block_start p t : comm (block_start p t). Proof. unfold block_start. cmm. Qed.
Hint Resolve comm_block_start : cmm.
Lemma comm_value : comm fetch_value.
Proof.
  unfold fetch_value. apply comm_get_keys; [reflexivity|]. intros s L. apply comm_bind; [|cmm].
  destruct (s_keys s) as [|k ks]; [apply comm_bad|]. apply Forall_inv in L as L1. apply Forall_inv_tail in L as L2. destruct (k_possible k) eqn:Kp.
  - apply comm_bind; [apply comm_insert; auto|intros _]. apply comm_bind; [apply comm_roll_some; auto|intros _]. apply comm_bind; [|cmm].
    apply comm_modify; auto. intros s1 _. cbn. constructor; [discriminate|exact L2].
  - cmm.
Qed.
Hint Resolve comm_value : cmm.
Lemma comm_branch b : comm (fetch_branch b).
Proof.
  destruct b; cbn [fetch_branch];
  unfold fetch_stream_end, fetch_directive, fetch_document_indicator, fetch_flow_collection_start, fetch_flow_collection_end, fetch_flow_entry, fetch_block_entry, fetch_key, fetch_anchor, fetch_tag, fetch_block_scalar, fetch_flow_scalar, fetch_plain_scalar; cmm.
  intros q s x s' E P L R. discriminate R.
Qed.
Hint Resolve comm_branch : cmm.
Lemma comm_next : comm fetch_next_token.
Proof. unfold fetch_next_token, fetch_stream_start. cmm. cbn. constructor; [discriminate|auto]. Qed.
End Commute.

(* --- keys that are no longer possible at a mark --- *)
Definition too_old (m : mark) (k : skey) : bool := (m_line (k_mark k) <? m_line m) || (m_index (k_mark k) + 1024 <? m_index m).
Inductive faded (m : mark) : list skey -> list skey -> Prop :=
| faded_nil : faded m [] []
| faded_same k ks ks' : faded m ks ks' -> faded m (k :: ks) (k :: ks')
| faded_gone k ks ks' : faded m ks ks' -> k_possible k = true -> k_required k = false -> too_old m k = true ->
    faded m (k :: ks) (mkKey false (k_required k) (k_number k) (k_mark k) :: ks').
Lemma faded_refl m ks : faded m ks ks.
Proof. induction ks; constructor; auto. Qed.
Definition before (m m' : mark) : Prop := m_line m <= m_line m' /\ m_index m <= m_index m'.
Lemma too_old_later m m' k : before m m' -> too_old m k = true -> too_old m' k = true.
Proof. unfold before, too_old. intros [B1 B2] H. apply orb_true_iff in H as [H|H]; apply N.ltb_lt in H; apply orb_true_iff; [left|right]; apply N.ltb_lt; lia. Qed.
Lemma faded_stale m m' ks ks' : faded m ks ks' -> before m m' -> stale m' ks' = stale m' ks.
Proof.
  intros F B. induction F as [|k ks ks' F IH|k ks ks' F IH P R O]; [reflexivity| |].
  - cbn [stale]. rewrite IH. reflexivity.
  - cbn [stale k_possible andb]. rewrite IH. destruct (stale m' ks); [|reflexivity]. fold (too_old m' k). rewrite (too_old_later m m' k B O), P. cbn [andb]. rewrite R. reflexivity.
Qed.
Lemma stale_earlier m m' : before m m' -> forall ks r, stale m' ks = inl r -> exists r0, stale m ks = inl r0 /\ faded m ks r0.
Proof.
  intros B. induction ks as [|k ks IH]; intros r H; cbn [stale] in *; [exists []; split; [reflexivity|constructor]|].
  destruct (stale m' ks) as [r1|] eqn:S1; [|discriminate]. destruct (IH r1 eq_refl) as (r0 & E0 & F0). rewrite E0. fold (too_old m k). fold (too_old m' k) in H.
  destruct (k_possible k) eqn:P; cbn [andb] in *; [|exists (k :: r0); split; [reflexivity|constructor; auto]].
  destruct (too_old m k) eqn:O; [|exists (k :: r0); split; [reflexivity|constructor; auto]]. rewrite (too_old_later m m' k B O) in H.
  destruct (k_required k) eqn:R; [discriminate|]. eexists. split; [reflexivity|]. pose proof (faded_gone m k ks r0 F0 P R O) as G. rewrite R in G. exact G.
Qed.
Lemma stale_none m ks : Forall (fun k => k_possible k = false) ks -> stale m ks = inl ks.
Proof. induction 1 as [|k ks P H IH]; [reflexivity|]. cbn [stale]. rewrite IH, P. reflexivity. Qed.

(* --- the next fetch forgets the old keys itself --- *)
Lemma set_keys_same s : set_keys s (s_keys s) = s.
Proof. destruct s; reflexivity. Qed.
Lemma scan_to_later flow al c a c' : (1 <= c_unread c)%nat -> scan_to_next_token flow al c = COk a c' -> before (c_mark c) (c_mark c').
Proof.
  intros U E. pose proof (p_scan_to_next_token (c_text c) (c_mark c) None flow al 1 (c_text c) (c_mark c) c (fun _ c' => before (c_mark c) (c_mark c'))) as W.
  unfold wp in W. rewrite E in W. apply W.
  - apply pos_start. apply hold_start. exact U.
  - intros a0 t' m' c0 H _ A _ _ _ _ _. destruct H as [H _]. destruct H as (_ & -> & _). split; [eapply adv_line_le; eauto|]. apply adv_index in A as I. apply adv_len in A. unfold nlen in I. lia.
Qed.
Lemma cache_unread c u c' : cache 1 c = COk u c' -> (1 <= c_unread c')%nat /\ c_mark c' = c_mark c.
Proof.
  unfold cache. destruct (Nat.leb_spec 1 (c_unread c)); [intros E; injection E as _ <-; auto|]. destruct (_ && _); [discriminate|]. intros E. injection E as _ <-. cbn. split; [lia|reflexivity].
Qed.

(* the second half of yaml_parser_fetch_next_token *)
Definition fetch_rest : sm unit :=
  s <~ get ;;
  unroll_indent (Z.of_N (m_column (smark s))) ~;;
  lift (cache 4) ~;;
  b <~ lift (choose (in_flow s)) ;;
  fetch_branch b.
Lemma fetch_eq s : s_started s = true -> fetch_next_token s =
  match cache 1 (s_cur s) with
  | COk _ c1 =>
      match scan_to_next_token (in_flow s) (s_allowed s) c1 with
      | COk a c2 =>
          match stale (c_mark c2) (s_keys s) with
          | inl r => fetch_rest (set_keys (set_allowed (set_cur s c2) a) r)
          | inr m => SErr (mkSerr SNoColon (Some m) (c_mark c2))
          end
      | CErr e => SErr e | CBad => SBad | CFuel => SFuel
      end
  | CErr e => SErr e | CBad => SBad | CFuel => SFuel
  end.
Proof.
  intros St. unfold fetch_next_token, sbind at 1. unfold lift at 1. destruct (cache 1 (s_cur s)) as [u c1| | |]; try reflexivity.
  unfold sbind at 1, get at 1. cbn [set_cur s_started]. rewrite St. cbn [negb]. unfold sbind at 1, lift at 1. cbn [set_cur s_cur].
  change (in_flow (mkSc c1 _ _ _ _ _ _ _ _ _ _ _ _ _)) with (in_flow s). cbn [s_allowed].
  destruct (scan_to_next_token _ _ c1) as [a c2| | |]; try reflexivity.
  unfold sbind at 1, allow, modify. unfold sbind at 1, stale_simple_keys. unfold smark at 1 2 3. cbn [set_cur s_cur set_allowed s_keys].
  destruct (stale (c_mark c2) (s_keys s)) as [r|]; reflexivity.
Qed.
Lemma fetch_stale s s1 : s_started s = true -> fetch_next_token s = SOk tt s1 -> exists m' r, before (smark s) m' /\ stale m' (s_keys s) = inl r.
Proof.
  intros St R. rewrite (fetch_eq s St) in R. destruct (cache 1 (s_cur s)) as [u c1| | |] eqn:C; try discriminate. destruct (cache_unread _ _ _ C) as [U M].
  destruct (scan_to_next_token _ _ c1) as [a c2| | |] eqn:T; try discriminate. apply scan_to_later in T; [|exact U].
  destruct (stale (c_mark c2) (s_keys s)) as [r|] eqn:E; [|discriminate]. exists (c_mark c2), r. split; [|exact E]. unfold smark. rewrite <- M. exact T.
Qed.
Lemma fetch_faded s ks s1 : faded (smark s) (s_keys s) ks -> (s_started s = false -> s_keys s = []) -> fetch_next_token s = SOk tt s1 -> fetch_next_token (set_keys s ks) = SOk tt s1.
Proof.
  intros F St0 R. destruct (s_started s) eqn:St.
  2: { rewrite (St0 eq_refl) in F. inversion F; subst. rewrite <- (St0 eq_refl), set_keys_same. exact R. }
  clear St0. rewrite <- R. rewrite (fetch_eq s St), (fetch_eq (set_keys s ks) St). change (s_cur (set_keys s ks)) with (s_cur s). change (s_keys (set_keys s ks)) with ks.
  change (s_allowed (set_keys s ks)) with (s_allowed s). change (in_flow (set_keys s ks)) with (in_flow s).
  destruct (cache 1 (s_cur s)) as [u c1| | |] eqn:C; try reflexivity. destruct (cache_unread _ _ _ C) as [U M].
  destruct (scan_to_next_token _ _ c1) as [a c2| | |] eqn:T; try reflexivity. apply scan_to_later in T; [|exact U].
  rewrite (faded_stale (smark s) _ (s_keys s) ks); [|exact F|unfold smark; rewrite <- M; exact T]. destruct (stale _ _); reflexivity.
Qed.

(* --- fetching eagerly --- *)
Definition running (s : sc) : Prop := s_started s = true /\ s_ended s = false /\ s_error s = None /\ s_avail s = false /\ is_deep s = false.
Inductive eager : nat -> sc -> sc -> Prop :=
| eager_refl s : eager O s s
| eager_step n s s1 s2 : fetch_next_token s = SOk tt s1 -> running s1 -> eager n s1 s2 -> eager (S n) s s2.
(* a state at the end of the stream *)
Definition at_end (s : sc) : Prop :=
  (exists l e, s_tokens s = l ++ [e] /\ t_tok e = TStreamEnd /\ Forall (fun t => t_tok t <> TStreamEnd) l) /\ Forall (fun k => k_possible k = false) (s_keys s).

Section Deliver.
Variables (enc : encoding) (nest : Z) (T : list N).
Notation start := (init_scanner enc nest T false []).
Definition real (L : sc) : Prop := exists s, calls start s /\ wfc (s_cur s) /\ L = fulls s.
Variable final : sc.
Hypothesis Hfinal : at_end final.

(* what the lazy scanner knows: [E] is the eager state, [pre] has been delivered *)
Record lags (n : nat) (pre q : list token) (E : sc) (ks : list skey) : Prop := {
  l_eager : eager n E final;
  l_tokens : s_tokens E = pre ++ q;
  l_parsed : s_parsed E = 0;
  l_late : late_keys pre ks;
  l_faded : faded (smark E) (s_keys E) ks;
  l_started : s_started E = true \/ (s_keys E = [] /\ pre ++ q = []);
  l_ended : s_ended E = false;
  l_error : s_error E = None;
  l_avail : s_avail E = false;
  l_deep : is_deep E = false \/ pre ++ q = [] }.
Definition no_end (pre : list token) : Prop := Forall (fun t => t_tok t <> TStreamEnd) pre.
Definition lazy (pre q : list token) (E : sc) (ks : list skey) : sc := handed pre q (set_keys E ks).

Lemma lags_fetch n pre q E ks : lags n pre q E ks -> no_end pre -> q <> [] \/ exists n', n = S n'.
Proof.
  intros H O. destruct n as [|n]; [|right; eauto]. left. intros ->. pose proof (l_eager _ _ _ _ _ H) as R. inversion R; subst.
  destruct Hfinal as [(l & e & El & Et & F) _]. pose proof (l_tokens _ _ _ _ _ H) as Tk. rewrite app_nil_r in Tk. unfold no_end in O. rewrite <- Tk, El in O.
  apply Forall_app in O as [_ O]. apply Forall_inv in O. contradiction.
Qed.
Lemma lags_step n pre q E ks : lags (S n) pre q E ks -> exists E1 q1, fetch_next_token (lazy pre q E ks) = SOk tt (lazy pre q1 E1 (s_keys E1)) /\ lags n pre q1 E1 (s_keys E1).
Proof.
  intros H. pose proof (l_eager _ _ _ _ _ H) as R. inversion R as [|n0 s0 E1 s2 F1 R1 R2]; subst.
  assert (F2 : fetch_next_token (set_keys E ks) = SOk tt E1).
  { apply fetch_faded; [exact (l_faded _ _ _ _ _ H)| |exact F1]. intros St. destruct (l_started _ _ _ _ _ H) as [K|K]; [congruence|apply K]. }
  destruct (comm_next pre q (set_keys E ks) tt E1 (l_tokens _ _ _ _ _ H) (l_parsed _ _ _ _ _ H) (l_late _ _ _ _ _ H) F2) as (q1 & T1 & P1 & K1 & C1).
  exists E1, q1. split. { unfold lazy. rewrite set_keys_same. exact C1. }
  destruct R1 as (A1 & A2 & A3 & A4 & A5). constructor; auto. apply faded_refl.
Qed.
Lemma lags_stale n pre q E ks : lags n pre q E ks -> q <> [] -> exists ks', stale (smark E) ks = inl ks' /\ lags n pre q E ks'.
Proof.
  intros H Q. pose proof (l_faded _ _ _ _ _ H) as F. assert (B : before (smark E) (smark E)) by (split; lia). rewrite (faded_stale _ _ _ _ F B).
  assert (K : exists r0, stale (smark E) (s_keys E) = inl r0 /\ faded (smark E) (s_keys E) r0).
  { pose proof (l_eager _ _ _ _ _ H) as R. inversion R as [|n0 s0 E1 s2 F1 R1 R2]; subst.
    - destruct Hfinal as [_ N]. rewrite (stale_none _ _ N). eexists. split; [reflexivity|apply faded_refl].
    - destruct (l_started _ _ _ _ _ H) as [St|[_ St]]; [|apply app_eq_nil in St as [_ St]; contradiction].
      destruct (fetch_stale _ _ St F1) as (m' & r & Bm & Er). eapply stale_earlier; eauto. }
  destruct K as (r0 & E0 & F0). exists r0. split; [exact E0|]. destruct H as [H1 H2 H3 H4 H5 H6 H7 H8 H9 H10]. constructor; auto.
  eapply (stale_late pre (smark E)); [|exact H4]. rewrite (faded_stale _ _ _ _ F B). exact E0.
Qed.
Lemma lags_more k : forall n pre q E ks, lags n pre q E ks -> no_end pre ->
  fetch_more_n k (lazy pre q E ks) = SFuel \/
  exists n' q' E' ks', (n' <= n)%nat /\ (n' = n -> q' = q) /\ lags n' pre q' E' ks' /\ q' <> [] /\ head_may_be_key (lazy pre q' E' ks') = false
    /\ fetch_more_n k (lazy pre q E ks) = SOk tt (set_avail (lazy pre q' E' ks') true).
Proof.
  induction k as [|k IH]; intros n pre q E ks H O; [left; reflexivity|]. cbn [fetch_more_n].
  assert (G : forall ks', lags n pre q E ks' -> (exists n', n = S n') ->
    (fetch_next_token ~;; fetch_more_n k) (lazy pre q E ks') = SFuel \/
    exists n' q' E' ks1, (n' <= n)%nat /\ (n' = n -> q' = q) /\ lags n' pre q' E' ks1 /\ q' <> [] /\ head_may_be_key (lazy pre q' E' ks1) = false
    /\ (fetch_next_token ~;; fetch_more_n k) (lazy pre q E ks') = SOk tt (set_avail (lazy pre q' E' ks1) true)).
  { intros ks' H' [n' ->]. destruct (lags_step _ _ _ _ _ H') as (E1 & q1 & F1 & H1). unfold sbind. rewrite F1.
    destruct (IH _ _ _ _ _ H1 O) as [K|(n2 & q2 & E2 & ks2 & L2 & _ & H2 & Q2 & N2 & K2)]; [left; exact K|right]. exists n2, q2, E2, ks2. split; [lia|]. split; [lia|auto]. }
  change (s_tokens (lazy pre q E ks)) with q. destruct q as [|t q'] eqn:Eq.
  - match goal with |- ?a = SFuel \/ _ => change a with ((fetch_next_token ~;; fetch_more_n k) (lazy pre [] E ks)) end.
    apply G; auto. destruct (lags_fetch _ _ _ _ _ H O) as [K|K]; [contradiction|exact K].
  - destruct (lags_stale _ _ _ _ _ H) as (ks' & S1 & H1); [discriminate|].
    match goal with |- ?a = SFuel \/ _ => replace a with ((if head_may_be_key (lazy pre (t :: q') E ks') then fetch_next_token ~;; fetch_more_n k else modify (fun s => set_avail s true)) (lazy pre (t :: q') E ks')) end.
    2: { unfold sbind at 2. unfold sbind at 2. unfold stale_simple_keys. change (smark (lazy pre (t :: q') E ks)) with (smark E). change (s_keys (lazy pre (t :: q') E ks)) with ks. rewrite S1. reflexivity. }
    destruct (head_may_be_key (lazy pre (t :: q') E ks')) eqn:Hk.
    + apply G; auto. destruct n as [|n]; [exfalso|eauto]. pose proof (l_eager _ _ _ _ _ H1) as R. inversion R; subst. destruct Hfinal as [_ N].
      assert (ks' = s_keys final). { pose proof (l_faded _ _ _ _ _ H1) as F. clear -F N. induction F; [reflexivity| |]; apply Forall_inv in N as N1; apply Forall_inv_tail in N as N2; rewrite ?IHF; auto. congruence. }
      subst ks'. unfold head_may_be_key in Hk. change (s_keys (lazy _ _ _ ?k)) with k in Hk. clear -Hk N. induction N as [|x l P N IHN]; [discriminate|]. cbn [existsb] in Hk. rewrite P in Hk. apply IHN. exact Hk.
    + right. exists n, (t :: q'), E, ks'. split; [lia|]. split; [auto|]. split; [exact H1|]. split; [discriminate|]. split; [exact Hk|reflexivity].
Qed.
Lemma late_deliver pre t q E ks : late_keys pre ks -> head_may_be_key (lazy pre q E ks) = false -> late_keys (pre ++ [t]) ks.
Proof.
  unfold head_may_be_key. change (s_keys (lazy pre q E ks)) with ks. change (s_parsed (lazy pre q E ks)) with (nlen pre). intros L H. induction L as [|k ks L1 L2 IH]; [constructor|].
  cbn [existsb] in H. apply orb_false_iff in H as [H1 H2]. constructor; [|apply IH; exact H2]. intros P. specialize (L1 P). rewrite P in H1. cbn [andb] in H1. apply N.eqb_neq in H1. rewrite nlen_app. cbn. lia.
Qed.
Lemma lags_stable n : forall pre q E ks, lags n pre q E ks -> exists q', s_tokens final = pre ++ q'.
Proof.
  induction n as [|n IH]; intros pre q E ks H.
  - pose proof (l_eager _ _ _ _ _ H) as R. inversion R; subst. exists q. exact (l_tokens _ _ _ _ _ H).
  - destruct (lags_step _ _ _ _ _ H) as (E1 & q1 & _ & H1). exact (IH _ _ _ _ H1).
Qed.
Lemma lags_next n pre t q E ks : lags n pre (t :: q) E ks -> head_may_be_key (lazy pre (t :: q) E ks) = false -> lags n (pre ++ [t]) q E ks.
Proof.
  intros [H1 H2 H3 H4 H5 H6 H7 H8 H9 H10] K. assert (X : pre ++ t :: q = (pre ++ [t]) ++ q) by (rewrite <- app_assoc; reflexivity). constructor; auto; try (rewrite <- X; assumption).
  eapply late_deliver; eauto.
Qed.
Lemma real_scan L : real L -> scan L <> ScanFuel /\ scan L <> ScanBad /\ forall t L', scan L = ScanToken t L' -> real L'.
Proof.
  intros (s & C & W & ->). pose proof (scan_safe _ _ _ _ _ _ C) as S1. pose proof (scan_returns _ _ _ _ _ _ C) as S2. pose proof (scan_full s W) as K.
  destruct (scan s) as [t0 s'|s'|s'| |] eqn:E; try contradiction; destruct K as [K W']; rewrite K; repeat split; try discriminate.
  intros t L' X. injection X as <- <-. exists s'. repeat split; auto; try apply W'. clear -C E. induction C; [econstructor; [exact E|constructor]|econstructor 2; eauto|econstructor 3; eauto|econstructor 4; eauto].
Qed.
Lemma lags_deliver n : forall k pre q E ks, (length q <= k)%nat -> lags n pre q E ks -> no_end pre -> real (lazy pre q E ks) ->
  exists c l, scan_all c (lazy pre q E ks) = (l, Ended) /\ map t_tok pre ++ map t_tok l = map t_tok (s_tokens final) /\ Forall (fun t => t_deep t = false) l.
Proof.
  induction n as [n IHn] using lt_wf_ind. induction k as [k IHk] using lt_wf_ind. intros pre q E ks Lk H O R.
  destruct (real_scan _ R) as (Rf & Rb & Rn).
  assert (SE : scan (lazy pre q E ks) = match fetch_more_tokens (lazy pre q E ks) with
    | SErr e => ScanFail (set_error (lazy pre q E ks) e) | SBad => ScanBad | SFuel => ScanFuel
    | SOk _ s => match s_tokens s with [] => ScanBad | t :: q0 => ScanToken (mkToken (t_tok t) (t_start t) (t_end t) (is_deep s))
            (mkSc (s_cur s) (s_enc s) (s_started s) (s_ended s || is_stream_end (t_tok t)) (s_error s) (s_flow s) q0
               (s_parsed s + 1) false (s_indents s) (s_indent s) (s_allowed s) (s_keys s) (s_nest s)) end end).
  { unfold scan. change (s_ended (lazy pre q E ks)) with (s_ended E). change (s_error (lazy pre q E ks)) with (s_error E). change (s_avail (lazy pre q E ks)) with (s_avail E).
    rewrite (l_ended _ _ _ _ _ H), (l_error _ _ _ _ _ H), (l_avail _ _ _ _ _ H). reflexivity. }
  unfold fetch_more_tokens in SE. destruct (lags_more (length (c_text (s_cur (lazy pre q E ks))) + 3) _ _ _ _ _ H O) as [K|(n' & q' & E' & ks' & L' & Q' & H' & N' & M' & K)]; rewrite K in SE; [contradiction|].
  change (s_tokens (set_avail (lazy pre q' E' ks') true)) with q' in SE. destruct q' as [|t q2]; [contradiction|].
  set (s1 := mkSc _ _ _ _ _ _ q2 _ _ _ _ _ _ _) in SE. set (t1 := mkToken _ _ _ _) in SE.
  assert (D : is_deep E' = false). { destruct (l_deep _ _ _ _ _ H') as [D|D]; [exact D|]. apply app_eq_nil in D as [_ D]. discriminate. }
  pose proof (lags_next _ _ _ _ _ _ H' M') as H2. destruct (is_stream_end (t_tok t)) eqn:Et.
  - (* the end of the stream *)
    assert (En : t_tok t = TStreamEnd) by (destruct (t_tok t); try discriminate; reflexivity).
    destruct (lags_stable _ _ _ _ _ H2) as (q3 & T3). destruct Hfinal as [(l & e & El & Ee & F) _].
    assert (q3 = []) as ->.
    { destruct q3 as [|y0 q3]; [reflexivity|exfalso]. destruct (@exists_last _ (y0 :: q3)) as (q4 & y & E4); [discriminate|]. rewrite E4 in T3. rewrite El in T3. rewrite app_assoc in T3. apply app_inj_tail in T3 as [T3 _]. rewrite T3 in F.
      apply Forall_app in F as [F _]. apply Forall_app in F as [_ F]. apply Forall_inv in F. contradiction. }
    exists 2%nat, [t1]. cbn [scan_all]. rewrite SE. unfold scan. unfold s1 at 1. cbn [s_ended]. rewrite orb_true_r. cbn [orb].
    replace (s_error s1) with (@None serr) by (symmetry; exact (l_error _ _ _ _ _ H')). split; [reflexivity|]. rewrite T3, app_nil_r, map_app. split; [reflexivity|]. constructor; [exact D|constructor].
  - assert (S1 : s1 = lazy (pre ++ [t]) q2 E' ks').
    { unfold s1, lazy, handed. cbn [set_avail set_keys s_cur s_enc s_started s_ended s_error s_flow s_parsed s_avail s_indents s_indent s_allowed s_keys s_nest handed].
      rewrite orb_false_r, nlen_app, (l_avail _ _ _ _ _ H'). reflexivity. }
    assert (R2 : real (lazy (pre ++ [t]) q2 E' ks')). { rewrite <- S1. apply (Rn t1). exact SE. }
    assert (O2 : no_end (pre ++ [t])). { apply Forall_app. split; [exact O|]. constructor; [|constructor]. intros X. rewrite X in Et. discriminate. }
    assert (G : exists c l, scan_all c (lazy (pre ++ [t]) q2 E' ks') = (l, Ended) /\ map t_tok (pre ++ [t]) ++ map t_tok l = map t_tok (s_tokens final) /\ Forall (fun t => t_deep t = false) l).
    { destruct (Nat.eq_dec n' n) as [->|Nn].
      - specialize (Q' eq_refl). subst q. cbn [length] in Lk. apply (IHk (length q2)); auto. 
      - apply (IHn n' ltac:(lia) (length q2)); auto. }
    destruct G as (c & l & G1 & G2 & G3). exists (S c), (t1 :: l). cbn [scan_all]. rewrite SE, S1, G1. split; [reflexivity|]. split.
    + rewrite <- G2, map_app, <- app_assoc. reflexivity.
    + constructor; [exact D|exact G3].
Qed.
End Deliver.

Lemma scan_all_mono c : forall s l, scan_all c s = (l, Ended) -> forall c', (c <= c')%nat -> scan_all c' s = (l, Ended).
Proof.
  induction c as [|c IH]; intros s l H c' L; [discriminate H|]. destruct c' as [|c']; [lia|]. cbn [scan_all] in *.
  destruct (scan s) as [t s'|s'|s'| |]; auto. destruct (scan_all c s') as [l0 o] eqn:E. injection H as <- ->. rewrite (IH s' l0 E c') by lia. reflexivity.
Qed.
Definition eager_start (enc : encoding) (nest : Z) (T : list N) : sc := fulls (init_scanner enc nest T false []).
(* the tokens fetched eagerly are those delivered *)
Theorem eager_delivers enc nest T plan n final : eager n (eager_start enc nest T) final -> at_end final ->
  exists c l, (forall c', (c <= c')%nat -> scan_all c' (init_scanner enc nest T false plan) = (l, Ended)) /\ map t_tok l = map t_tok (s_tokens final) /\ Forall (fun t => t_deep t = false) l.
Proof.
  intros R F. assert (W : wfc (s_cur (init_scanner enc nest T false []))) by (split; [reflexivity|cbn; lia]).
  destruct (lags_deliver enc nest T final F n 0 [] [] (eager_start enc nest T) []) as (c & l & E & M & D).
  - cbn. lia.
  - constructor; try reflexivity; auto; [apply Forall_nil|apply faded_refl].
  - constructor.
  - exists (init_scanner enc nest T false []). split; [constructor|]. split; [exact W|reflexivity].
  - exists c, l. split; [|split; [exact M|exact D]]. intros c' L. rewrite (scan_plan_free enc nest T plan []), (scan_all_full enc nest T [] _ _ (calls_nil _) W). eapply scan_all_mono; [exact E|exact L].
Qed.
