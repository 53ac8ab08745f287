(* The tokens that a scanner still delivers, before and after PEEK_TOKEN and
   SKIP_TOKEN. *)
From Verif Require Import Base ReaderModel Types CursorModel ScanModel ScannerModel ScannerSpec CursorProofs ScannerInv ScannerFetch ScannerBranch ScannerBlock ScannerLoop ScannerFinal
  SplitEvents HeapParserSpec.

Definition left (s : sc) : nat := 4 * (N.to_nat (m_index (smark s)) + length (c_text (s_cur s))) + 4.
Lemma upcoming_left s : upcoming s = fst (scan_all (left s) s). Proof. reflexivity. Qed.
Definition lively (s : sc) : Prop := s_ended s = false /\ exists T e es, live T e es s.
Definition peeked (s : sc) : Prop := exists s0 u, lively s0 /\ fetch_more_tokens s0 = SOk u s.
Definition deepen (s : sc) (t : token) : token := mkToken (t_tok t) (t_start t) (t_end t) (is_deep s).
Definition skipped (s : sc) (q : list token) (ended : bool) : sc :=
  mkSc (s_cur s) (s_enc s) (s_started s) ended (s_error s) (s_flow s) q
       (s_parsed s + 1) false (s_indents s) (s_indent s) (s_allowed s) (s_keys s) (s_nest s).

Lemma more_avail n : forall s u s', fetch_more_n n s = SOk u s' -> s_avail s' = true.
Proof.
  induction n as [|n IH]; intros s u s' E; [discriminate|]. cbn [fetch_more_n] in E. unfold sbind at 1 in E.
  match type of E with match ?m with SOk _ _ => _ | _ => _ end = _ => destruct m as [b s1| | |]; try discriminate end. destruct b.
  - unfold sbind in E. destruct (fetch_next_token s1) as [v s2| | |]; try discriminate. exact (IH _ _ _ E).
  - injection E as _ <-. reflexivity.
Qed.
Lemma pos_nat (T : list N) s : m_index (smark s) + nlen (c_text (s_cur s)) = nlen T -> left s = (4 * length T + 4)%nat.
Proof. intros E. unfold left, nlen in *. lia. Qed.
Lemma core_left (T : list N) k es all s : core T k es all s -> left s = (4 * length T + 4)%nat.
Proof. intros C. apply pos_nat. pose proof (adv_index _ _ _ _ (c_pos _ _ _ _ _ C)) as X. cbn in X. exact X. Qed.
Lemma live_left (T : list N) e es s : live T e es s -> s_ended s = false -> left s = (4 * length T + 4)%nat.
Proof.
  intros [nest bad plan _ -> |all C _ _|F _ _|pre m _ _ H _ _] E; [cbn; lia|eapply core_left, C|apply pos_nat, (fi_pos _ _ _ F)|congruence].
Qed.
Lemma live_more (T : list N) e es s : live T e es s -> s_ended s = false ->
  match fetch_more_tokens s with
  | SOk _ s' => s_tokens s' <> [] /\ s_avail s' = true /\ s_started s' = true /\ s_ended s' = false /\ s_error s' = None /\ left s' = left s
  | SErr _ => True
  | _ => False
  end.
Proof.
  intros L En. pose proof (live_left _ _ _ _ L En) as El.
  assert (R : forall s', ready T es s' -> s_tokens s' <> [] /\ s_started s' = true /\ s_ended s' = false /\ s_error s' = None /\ left s' = left s).
  { intros s' (Nt & [(all & C & _)|F]); rewrite El; (split; [exact Nt|]).
    - split; [apply (c_started _ _ _ _ _ C)|]. split; [apply (c_ended _ _ _ _ _ C)|]. split; [apply (c_error _ _ _ _ _ C)|eapply core_left, C].
    - split; [apply (fi_started _ _ _ F)|]. split; [apply (fi_ended _ _ _ F)|]. split; [apply (fi_error _ _ _ F)|apply pos_nat, (fi_pos _ _ _ F)]. }
  assert (H : swp fetch_more_tokens s (fun _ s' => ready T es s') (eend T)).
  { destruct L as [nest bad plan -> ->|all C St Av|F St Av|pre m E Cp En' Et Er].
    - pose proof (first_fetch T e nest bad plan) as H. unfold swp in *. destruct (fetch_more_tokens _); try exact H. destruct H as (C & Hk & Et).
      split; [rewrite Et; discriminate|]. left. eexists. split; [exact C|exact Hk].
    - unfold swp, fetch_more_tokens. pose proof (fetch_more_run T (length (c_text (s_cur s)) + 3) es all s (fun _ s' => ready T es s') C) as H. apply H; [unfold ScannerBranch.ctext; lia|auto].
    - unfold swp, fetch_more_tokens. replace (length (c_text (s_cur s)) + 3)%nat with (S (length (c_text (s_cur s)) + 2)) by lia.
      exact (finished_stop T es s (fun _ s' => ready T es s') _ F (fun s' R A => R)).
    - congruence. }
  unfold swp in H. destruct (fetch_more_tokens s) as [u s'| | |] eqn:Em; [|trivial|contradiction|contradiction].
  destruct (R s' H) as (R1 & R2 & R3 & R4 & R5). split; [exact R1|]. split; [exact (more_avail _ _ _ _ Em)|auto].
Qed.
Lemma lively_more s : lively s ->
  match fetch_more_tokens s with
  | SOk _ s' => s_tokens s' <> [] /\ s_avail s' = true /\ s_started s' = true /\ s_ended s' = false /\ s_error s' = None /\ left s' = left s
  | SErr _ => True
  | _ => False
  end.
Proof. intros (En & T & e & es & L). exact (live_more _ _ _ _ L En). Qed.
Lemma lively_error s : lively s -> s_error s = None.
Proof. intros (_ & T & e & es & L). exact (live_error _ _ _ _ L). Qed.
Lemma lively_avail s : lively s -> s_avail s = false.
Proof. intros (En & T & e & es & [nest bad plan _ -> |all _ _ A|_ _ A|pre m _ _ H _ _]); [reflexivity|exact A|exact A|congruence]. Qed.
Lemma lively_init e nest T bad plan : lively (init_scanner e nest T bad plan).
Proof. split; [reflexivity|]. exists T, e, []. eapply lv_init; reflexivity. Qed.
Lemma left_S s : exists n, left s = S n.
Proof. unfold left. eexists (_ + 3)%nat. rewrite Nat.add_succ_r. reflexivity. Qed.
Lemma upcoming_error s e : s_error s = Some e -> upcoming s = [].
Proof. intros E. rewrite upcoming_left. destruct (left_S s) as [n ->]. cbn [scan_all]. unfold scan. rewrite E, orb_true_r. reflexivity. Qed.
Lemma upcoming_ended s : s_ended s = true -> upcoming s = [].
Proof. intros E. rewrite upcoming_left. destruct (left_S s) as [n ->]. cbn [scan_all]. unfold scan. rewrite E. reflexivity. Qed.
Lemma upcoming_fails s e : lively s -> fetch_more_tokens s = SErr e -> upcoming s = [].
Proof.
  intros L E. rewrite upcoming_left. destruct (left_S s) as [n ->]. cbn [scan_all]. unfold scan. rewrite (lively_error s L), (proj1 L), (lively_avail s L), E. reflexivity.
Qed.
Lemma upcoming_same s u s' : lively s -> fetch_more_tokens s = SOk u s' -> upcoming s' = upcoming s.
Proof.
  intros L E. pose proof (lively_more s L) as M. rewrite E in M. destruct M as (Nt & Av & _ & En & Er & El).
  rewrite !upcoming_left, El. destruct (left_S s) as [n ->]. cbn [scan_all].
  replace (scan s) with (scan s'); [reflexivity|]. unfold scan. rewrite Er, En, Av, (lively_error s L), (proj1 L), (lively_avail s L), E. reflexivity.
Qed.
Lemma peeked_facts s : peeked s -> s_tokens s <> [] /\ s_avail s = true /\ s_started s = true /\ s_ended s = false /\ s_error s = None.
Proof. intros (s0 & u & L & E). pose proof (lively_more s0 L) as M. rewrite E in M. tauto. Qed.
Lemma upcoming_skip s t q : peeked s -> s_tokens s = t :: q ->
  let s' := skipped s q (is_stream_end (t_tok t)) in
  upcoming s = deepen s t :: upcoming s' /\ (is_stream_end (t_tok t) = false -> lively s').
Proof.
  intros P Et s'. destruct (peeked_facts s P) as (_ & Av & _ & En & Er). destruct P as (s0 & u & L & E).
  assert (Sc : scan s0 = ScanToken (deepen s t) s').
  { unfold scan. rewrite (lively_error s0 L), (proj1 L), (lively_avail s0 L), E. cbn [orb]. rewrite Et, En. reflexivity. }
  pose proof (lively_more s0 L) as M. rewrite E in M. destruct M as (_ & _ & _ & _ & _ & El).
  destruct L as (En0 & T & e & es & Lv). pose proof (live_left _ _ _ _ Lv En0) as Lf.
  pose proof (scan_step T e es s0 Lv) as K. rewrite Sc in K.
  assert (Ls : left s' = (4 * length T + 4)%nat) by (change (left s') with (left s); rewrite El; exact Lf).
  split; [|intros I; split; [exact I|]; eauto].
  rewrite (upcoming_left s). rewrite El, Lf. replace (4 * length T + 4)%nat with (S (4 * length T + 3)) by lia. cbn [scan_all].
  assert (Ss : scan s = ScanToken (deepen s t) s').
  { unfold scan. rewrite En, Er, Av, Et. cbn [orb]. rewrite En. reflexivity. }
  rewrite Ss. destruct (scan_all_live T e (4 * length T + 3) _ _ K) as (l & o & s2 & E1 & _ & D).
  { rewrite app_length. cbn [length]. lia. }
  rewrite E1. cbn [fst]. f_equal. rewrite upcoming_left, Ls. replace (4 * length T + 4)%nat with (4 * length T + 3 + 1)%nat by lia.
  rewrite (scan_all_more _ 1 _ _ _ E1); [reflexivity|]. destruct D as [(-> & _)|(er & s3 & -> & _)]; discriminate.
Qed.
Lemma upcoming_init e nest T bad plan : upcoming (init_scanner e nest T bad plan) = fst (scan_all (4 * length T + 4) (init_scanner e nest T bad plan)).
Proof. reflexivity. Qed.
Lemma upcoming_short s : lively s -> (length (upcoming s) < left s)%nat.
Proof.
  intros L. destruct L as (En0 & T & e & es & Lv). rewrite upcoming_left, (live_left _ _ _ _ Lv En0).
  destruct (scan_all_live T e (4 * length T + 4) _ _ Lv) as (l & o & s2 & E1 & Sc & _); [lia|]. rewrite E1. cbn [fst].
  apply (live_scans T e es _ l s2) in Sc; [|exact Lv]. apply live_count in Sc. rewrite app_length, map_length in Sc. lia.
Qed.
