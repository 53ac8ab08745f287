(* The end of an eager run of the token fetcher. *)
From Verif Require Import Base ReaderModel Utf8Spec CharSpec Types CursorModel ScanModel ScannerModel CursorProofs ScanProofs ScanQuoted ScannerSpec ScannerInv ScannerFetch ScannerBranch ScannerBlock ScannerLoop PlanFree FullRun EagerScan ScanStep.

(* ---- no token is lost ---- *)
Definition keeps {A} (m : sm A) : Prop := forall s a s', m s = SOk a s' -> incl (s_tokens s) (s_tokens s').
Lemma keeps_bind {A B} (m : sm A) (k : A -> sm B) : keeps m -> (forall a, keeps (k a)) -> keeps (sbind m k).
Proof. intros H K s a s' R. unfold sbind in R. destruct (m s) as [x s1| | |] eqn:M; try discriminate. eapply incl_tran; [exact (H _ _ _ M)|exact (K _ _ _ _ R)]. Qed.
Lemma keeps_get : keeps get.
Proof. intros s a s' R. injection R as <- <-. apply incl_refl. Qed.
Lemma keeps_modify f : (forall s, incl (s_tokens s) (s_tokens (f s))) -> keeps (modify f).
Proof. intros F s a s' R. injection R as <- <-. apply F. Qed.
Lemma keeps_ret {A} (a : A) : keeps (sret a).
Proof. intros s x s' R. injection R as <- <-. apply incl_refl. Qed.
Lemma keeps_error {A} ctx p : keeps (@serror A ctx p).
Proof. intros s x s' R. discriminate R. Qed.
Lemma keeps_bad {A} : keeps (fun _ => @SBad A).
Proof. intros s x s' R. discriminate R. Qed.
Lemma keeps_fuel {A} : keeps (fun _ => @SFuel A).
Proof. intros s x s' R. discriminate R. Qed.
Lemma keeps_lift {A} (m : cm A) : keeps (lift m).
Proof. intros s x s' R. unfold lift in R. destruct (m (s_cur s)); try discriminate. injection R as <- <-. apply incl_refl. Qed.
Lemma keeps_allow b : keeps (allow b).
Proof. apply keeps_modify. intros s. apply incl_refl. Qed.
Lemma keeps_enqueue t : keeps (enqueue t).
Proof. apply keeps_modify. intros s. apply incl_appl, incl_refl. Qed.
Lemma keeps_insert n t : keeps (queue_insert n t).
Proof.
  intros s x s' R. unfold queue_insert in R. destruct (_ && _)%bool; [|discriminate]. injection R as <- <-. cbn [set_tokens s_tokens].
  intros y I. rewrite <- (firstn_skipn (N.to_nat (n - s_parsed s)) (s_tokens s)) in I. apply in_app_or in I as [I|I]; apply in_or_app; [left; exact I|right; right; exact I].
Qed.
Lemma keeps_stale : keeps stale_simple_keys.
Proof. intros s x s' R. unfold stale_simple_keys in R. destruct (stale (smark s) (s_keys s)); [|discriminate]. injection R as <- <-. apply incl_refl. Qed.
Lemma keeps_remove : keeps remove_simple_key.
Proof. intros s x s' R. unfold remove_simple_key in R. destruct (s_keys s) as [|k ks]; [discriminate|]. destruct (_ && _); [discriminate|]. injection R as <- <-. apply incl_refl. Qed.
Lemma keeps_decrease : keeps decrease_flow_level.
Proof. intros s x s' R. unfold decrease_flow_level in R. destruct (s_flow s =? 0); [injection R as <- <-; apply incl_refl|]. destruct (s_keys s); [discriminate|]. injection R as <- <-. apply incl_refl. Qed.
Lemma keeps_unroll c : keeps (unroll_indent c).
Proof.
  intros s x s' R. unfold unroll_indent in R. destruct (in_flow s); [injection R as <- <-; apply incl_refl|].
  destruct (unroll (smark s) c (s_indent s) (s_indents s) (s_tokens s)) as [[[i is] q']|] eqn:U; [|discriminate]. injection R as <- <-. exact (unroll_incl _ _ _ _ _ _ _ _ U).
Qed.
Create HintDb kp discriminated.
#[local] Hint Resolve keeps_get keeps_ret keeps_error keeps_bad keeps_fuel keeps_allow keeps_enqueue keeps_stale keeps_remove keeps_lift keeps_insert keeps_decrease keeps_unroll : kp.
Ltac kpt :=
  repeat (intros; match goal with
  | |- keeps (sbind _ _) => apply keeps_bind
  | |- keeps (modify _) => apply keeps_modify; intros; try apply incl_refl
  | |- keeps (if ?b then _ else _) => destruct b
  | |- keeps (match ?x with _ => _ end) => destruct x
  | |- _ => solve [auto with kp]
  end).
Lemma keeps_save : keeps save_simple_key. Proof. unfold save_simple_key. kpt. Qed.
Lemma keeps_increase : keeps increase_flow_level. Proof. unfold increase_flow_level. kpt. Qed.
Lemma keeps_roll c n t m : keeps (roll_indent c n t m). Proof. unfold roll_indent. kpt. Qed.
#[local] Hint Resolve keeps_save keeps_increase keeps_roll : kp.
Lemma keeps_reset : keeps reset_block. Proof. unfold reset_block. kpt. Qed.
Lemma keeps_chars n t : keeps (fetch_chars n t). Proof. unfold fetch_chars. kpt. Qed.
#[local] Hint Resolve keeps_reset keeps_chars : kp.
Lemma keeps_block_start p t : keeps (block_start p t). Proof. unfold block_start. kpt. Qed.
#[local] Hint Resolve keeps_block_start : kp.
Lemma keeps_value : keeps fetch_value. Proof. unfold fetch_value. kpt. Qed.
#[local] Hint Resolve keeps_value : kp.
Lemma keeps_branch b : keeps (fetch_branch b).
Proof.
  destruct b; cbn [fetch_branch];
  unfold fetch_stream_end, fetch_directive, fetch_document_indicator, fetch_flow_collection_start, fetch_flow_collection_end, fetch_flow_entry, fetch_block_entry, fetch_key, fetch_anchor, fetch_tag, fetch_block_scalar, fetch_flow_scalar, fetch_plain_scalar; kpt.
  intros s x s' R. discriminate R.
Qed.
#[local] Hint Resolve keeps_branch : kp.
Lemma keeps_next : keeps fetch_next_token.
Proof. unfold fetch_next_token, fetch_stream_start. kpt. Qed.

(* ---- the invariant of ScannerInv along the run ---- *)
Section End.
Variables (enc : encoding) (nest : Z) (T : list N).
Notation core := (core T 0 []).
Notation st := (st enc nest).
Notation first := (st T mark0 0 [zero_token (TStreamStart enc) mark0] [] (-1)%Z true [key0]).
Definition ended (s : sc) : Prop := exists t, In t (s_tokens s) /\ t_tok t = TStreamEnd.

Lemma first_core : core [start_tok enc] first.
Proof.
  constructor; try reflexivity; cbn.
  - constructor.
  - constructor. discriminate.
  - constructor.
    + cbn. split; [lia|]. split; [reflexivity|]. split; [discriminate|]. split; [lia|exact I].
    + cbn. split; [|exact I]. intros [K _]. discriminate.
    + constructor; [exact I|constructor].
    + constructor; [reflexivity|constructor].
    + exists []. split; [reflexivity|constructor].
  - constructor; [|constructor]. split; exists T; constructor.
  - lia.
  - lia.
Qed.
Lemma ended_keeps s a s' : fetch_next_token s = SOk a s' -> ended s -> ended s'.
Proof. intros R (t & I & E). exists t. split; [exact (keeps_next _ _ _ R _ I)|exact E]. Qed.
Lemma run_core n s s' : eager n s s' -> (exists all, core all s) -> (exists all, core all s') \/ ended s'.
Proof.
  assert (M : forall n s s', eager n s s' -> ended s -> ended s').
  { induction 1 as [|n0 s0 s1 s2 F R E IH]; [auto|]. intros D. apply IH. exact (ended_keeps _ _ _ F D). }
  induction 1 as [|n0 s0 s1 s2 F R E IH]; [auto|]. intros (all & C). pose proof (fetch_next_ok T [] all s0 C) as K. unfold swp in K. rewrite F in K.
  destruct K as [[(all' & C' & _) _]|Fi]; [apply IH; eauto|]. right. apply (M _ _ _ E). destruct (fi_all _ _ _ Fi) as (pre & E1 & _). cbn [app] in E1.
  exists (end_tok (smark s1)). split; [rewrite E1; apply in_or_app; right; left; reflexivity|reflexivity].
Qed.
Lemma stale_fresh m : forall ks r, stale m ks = inl r -> Forall (fun k => k_possible k = true -> too_old m k = false) r.
Proof.
  induction ks as [|k ks IH]; intros r H; cbn [stale] in H; [injection H as <-; constructor|]. fold (too_old m k) in H.
  destruct (stale m ks) as [r'|] eqn:E.
  2:{ destruct (k_possible k && too_old m k); [destruct (k_required k)|]; discriminate. }
  specialize (IH r' eq_refl). destruct (k_possible k) eqn:P, (too_old m k) eqn:O; cbn [andb] in H; try (destruct (k_required k); [discriminate|]); injection H as <-; constructor; auto; cbn; congruence.
Qed.
Theorem eager_finish n s m q al ks k kr : eager n first s -> alike s (st [] m 0 q [] (-1)%Z al ks) -> m_column m = 0 -> stale m ks = inl (k :: kr) -> soft k ->
  fits nest [] 0 -> Forall (fun t => t_tok t <> TStreamEnd) q ->
  exists n' final, eager n' (eager_start enc nest T) final /\ at_end final /\ s_tokens final = q ++ [zero_token TStreamEnd m].
Proof.
  intros R [A I] C S So F Q. destruct (run_core _ _ _ R (ex_intro _ _ first_core)) as [(all & Co)|(t & It & Et)].
  2:{ exfalso. cbn [ScanStep.st s_tokens] in I. apply I in It. rewrite Forall_forall in Q. exact (Q _ It Et). }
  set (final := st [] m 0 (q ++ [zero_token TStreamEnd m]) [] (-1)%Z false (kill k :: kr)).
  assert (Fe : fetch_next_token s = SOk tt final) by (rewrite A; exact (end_fetch enc nest m q al ks k kr C S So)).
  exists (Datatypes.S (n + 1))%nat, final. split; [|split; [|reflexivity]].
  - econstructor; [exact (start_step enc nest T F)|apply st_running; exact F|]. eapply eager_app; [exact R|]. econstructor; [exact Fe|apply st_running; exact F|constructor].
  - split; [exists q, (zero_token TStreamEnd m); auto|]. pose proof (fetch_next_ok T [] all s Co) as K. unfold swp in K. rewrite Fe in K.
    destruct K as [[(all' & C' & _) _]|Fi].
    + exfalso. pose proof (c_all _ _ _ _ _ C') as E. destruct (g_first _ _ _ (c_good _ _ _ _ _ C')) as (r & E2 & Fr). cbn [app] in E. rewrite E in E2. change (s_tokens final) with (q ++ [zero_token TStreamEnd m]) in E2.
      destruct q as [|t0 q]; [discriminate|]. cbn [app] in E2. injection E2 as _ E2. rewrite <- E2 in Fr. apply Forall_app in Fr as [_ Fr]. apply Forall_inv in Fr. exact Fr.
    + apply Forall_forall. intros k0 I0. destruct (k_possible k0) eqn:P; [|reflexivity]. exfalso. destruct (fi_keys _ _ _ Fi k0 I0 P) as [_ L]. change (smark final) with m in L.
      cbn [final ScanStep.st s_keys] in I0. destruct I0 as [<-|I0]; [discriminate P|].
      pose proof (stale_fresh _ _ _ S) as Fr. apply Forall_inv_tail in Fr. rewrite Forall_forall in Fr. specialize (Fr _ I0 P). unfold too_old in Fr. apply orb_false_iff in Fr as [Fr _]. lia.
Qed.
End End.
