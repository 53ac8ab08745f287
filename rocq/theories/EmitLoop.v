(* The emitter's event queue: what is accepted, in which order, and what is kept waiting. *)
From Verif Require Import Base Utf8Spec ReaderModel CharSpec Types TreeSpec EventAcc WriterModel WriterSpec PenModel EmitModel EmitSpec EmitInv EmitStep.

Lemma valid_split c e : valid_event c e <-> analysed c e /\ content_ok e.
Proof.
  unfold content_ok. destruct e; cbn [valid_event analysed untagged]; try tauto.
  destruct tag; [|destruct plain_implicit, quoted_implicit]; cbn; split; intros H; intuition (try congruence); auto.
  all: right; right; discriminate.
Qed.

Lemma einv_data m a d : einv m a -> einv (set_data m d) a.
Proof. intros [A B C D E]. constructor; assumption. Qed.
Lemma einv_events m a q : einv m a -> einv (set_events m q) a.
Proof. intros [A B C D E]. constructor; assumption. Qed.

Lemma one_step m a e q : einv m a -> m_events m = e :: q ->
  (exists a' m', astep a e = Some a' /\ valid_event (g_canonical (m_cfg m)) e /\ emit_one m e = EOk m' /\ einv m' a' /\ m_events m' = q
     /\ g_canonical (m_cfg m') = g_canonical (m_cfg m))
  \/ ((astep a e = None \/ ~ valid_event (g_canonical (m_cfg m)) e) /\ exists x m', emit_one m e = EErr x m' /\ m_events m' = e :: q).
Proof.
  intros Inv Q. unfold emit_one. destruct (analyze_event (m_cfg m) (m_tags m) e) as [x|d] eqn:A.
  - right. split; [right|eexists _, _; split; [reflexivity|exact Q]]. rewrite valid_split. intros [V _]. apply (event_analysed _ (m_tags m)) in V as [d D]. congruence.
  - assert (V : analysed (g_canonical (m_cfg m)) e) by (apply (event_analysed _ (m_tags m)); eauto).
    destruct (machine_step (set_data m d) e a (einv_data _ _ _ Inv) A) as [(a' & m' & S & C & -> & I & E & G)|(N & x & m' & -> & E)]; cbn [ebind].
    + left. exists a', (set_events m' (tl (m_events m'))). split; [exact S|]. split; [apply valid_split; auto|]. split; [reflexivity|].
      split; [apply einv_events; exact I|]. split; [cbn; rewrite E; cbn; rewrite Q; reflexivity|exact G].
    + right. split; [|exists x, m'; split; [reflexivity|rewrite E; exact Q]]. destruct N as [N|N]; [left; exact N|right]. rewrite valid_split. tauto.
Qed.

(* what is to be said of a call given the acceptor's state before *)
Definition progress (m : emitter) (a : acc) (es : list ev) (r : eres) : Prop :=
  match r with
  | EOk m' => exists done a', es = done ++ m_events m' /\ arun a done = Some a' /\ einv m' a' /\ Forall (valid_event (g_canonical (m_cfg m))) done
      /\ g_canonical (m_cfg m') = g_canonical (m_cfg m) /\ need_more (m_events m') = true
  | EErr _ m' => exists done e q later a', es = done ++ (e :: q) ++ later /\ m_events m' = e :: q /\ arun a done = Some a' /\ Forall (valid_event (g_canonical (m_cfg m))) done
      /\ (astep a' e = None \/ ~ valid_event (g_canonical (m_cfg m)) e)
  | EBad => False
  end.

Lemma progress_stay m a : einv m a -> need_more (m_events m) = true -> progress m a (m_events m) (EOk m).
Proof. intros I N. exists [], a. split; [reflexivity|]. split; [reflexivity|]. split; [exact I|]. split; [constructor|]. split; [reflexivity|exact N]. Qed.

Lemma loop_progress n : forall m a, einv m a -> (length (m_events m) <= n)%nat -> progress m a (m_events m) (emit_loop n m).
Proof.
  induction n as [|n IH]; intros m a Inv L.
  - destruct (m_events m) as [|e q] eqn:Q; [|cbn in L; lia]. rewrite <- Q. apply progress_stay; [exact Inv|rewrite Q; reflexivity].
  - cbn [emit_loop]. destruct (m_events m) as [|e q] eqn:Q.
    { rewrite <- Q. apply progress_stay; [exact Inv|rewrite Q; reflexivity]. }
    destruct (need_more (e :: q)) eqn:N.
    { rewrite <- Q. apply progress_stay; [exact Inv|rewrite Q; exact N]. }
    destruct (one_step m a e q Inv Q) as [(a' & m' & S & V & -> & I & E & G)|(F & x & m' & -> & E)]; cbn [ebind].
    + assert (P : progress m' a' (m_events m') (emit_loop n m')) by (apply IH; [exact I|rewrite E; cbn in L; lia]).
      unfold progress in P |- *. destruct (emit_loop n m') as [m2|x m2|].
      * destruct P as (done & a2 & P1 & P2 & P3 & P4 & P5 & P6). exists (e :: done), a2. rewrite <- E, P1. cbn [arun app]. rewrite S.
        split; [reflexivity|]. split; [exact P2|]. split; [exact P3|]. split; [constructor; [exact V|rewrite <- G; exact P4]|]. split; [congruence|exact P6].
      * destruct P as (done & e2 & q2 & later & a2 & P1 & P2 & P3 & P4 & P5). exists (e :: done), e2, q2, later, a2. rewrite <- E, P1. cbn [arun app]. rewrite S.
        split; [reflexivity|]. split; [exact P2|]. split; [exact P3|]. split; [constructor; [exact V|rewrite <- G; exact P4]|]. rewrite <- G. exact P5.
      * exact P.
    + cbn. exists [], e, q, [], a. rewrite app_nil_r. split; [reflexivity|]. split; [exact E|]. split; [reflexivity|]. split; [constructor|exact F].
Qed.

Lemma all_progress es : forall m a, einv m a -> need_more (m_events m) = true -> progress m a (m_events m ++ es) (emit_all m es).
Proof.
  induction es as [|e r IH]; intros m a Inv N; cbn [emit_all].
  - rewrite app_nil_r. apply progress_stay; assumption.
  - unfold emit_event. set (m1 := set_events m (m_events m ++ [e])).
    pose proof (loop_progress (length (m_events m1)) m1 a (einv_events _ _ _ Inv) (le_n _)) as P.
    unfold progress in P. destruct (emit_loop (length (m_events m1)) m1) as [m2|x m2|]; cbn [ebind]; [| |contradiction].
    + destruct P as (done & a2 & P1 & P2 & P3 & P4 & P5 & P6).
      pose proof (IH m2 a2 P3 P6) as K. unfold progress in K |- *. destruct (emit_all m2 r) as [m3|x m3|]; [| |contradiction].
      * destruct K as (done3 & a3 & K1 & K2 & K3 & K4 & K5 & K6). exists (done ++ done3), a3.
        split. { rewrite <- app_assoc, <- K1, app_assoc, <- P1. unfold m1. cbn. rewrite <- app_assoc. reflexivity. }
        split. { rewrite arun_app, P2. exact K2. }
        split; [exact K3|]. split; [apply Forall_app; split; [exact P4|rewrite P5 in K4; exact K4]|]. split; [rewrite K5, P5; reflexivity|exact K6].
      * destruct K as (done3 & e3 & q3 & later & a3 & K1 & K2 & K3 & K4 & K5). exists (done ++ done3), e3, q3, later, a3.
        split. { rewrite <- app_assoc, <- K1, app_assoc, <- P1. unfold m1. cbn. rewrite <- app_assoc. reflexivity. }
        split; [exact K2|]. split. { rewrite arun_app, P2. exact K3. }
        split; [apply Forall_app; split; [exact P4|rewrite P5 in K4; exact K4]|]. rewrite P5 in K5. exact K5.
    + cbn. destruct P as (done & e3 & q3 & later & a3 & K1 & K2 & K3 & K4 & K5). exists done, e3, q3, (later ++ r), a3.
      split. { change (m_events m1) with (m_events m ++ [e]) in K1. replace (m_events m ++ e :: r) with ((m_events m ++ [e]) ++ r) by (rewrite <- app_assoc; reflexivity).
        rewrite K1, <- !app_assoc. reflexivity. }
      split; [exact K2|]. split; [exact K3|]. split; [exact K4|exact K5].
Qed.

Lemma einv_init g : einv (init_emitter g) AStart.
Proof. constructor; try reflexivity. constructor. Qed.

Lemma run_progress g es : progress (init_emitter g) AStart es (emit_all (init_emitter g) es).
Proof. apply (all_progress es (init_emitter g) AStart (einv_init g) eq_refl). Qed.

Theorem emitter_accepts g es :
  match emit_all (init_emitter g) es with
  | EOk m => exists done, es = done ++ m_events m /\ well_formed_prefix done /\ Forall (valid_event (g_canonical g)) done
  | EErr _ m => exists done e q later, es = done ++ (e :: q) ++ later /\ m_events m = e :: q /\
      well_formed_prefix done /\ Forall (valid_event (g_canonical g)) done /\
      (~ well_formed_prefix (done ++ [e]) \/ ~ valid_event (g_canonical g) e)
  | EBad => False
  end.
Proof.
  pose proof (run_progress g es) as P. unfold progress in P. destruct (emit_all (init_emitter g) es) as [m|x m|]; [| |exact P].
  - destruct P as (done & a & P1 & P2 & P3 & P4 & _). exists done. split; [exact P1|]. split; [|exact P4]. apply well_formed_prefix_acc. eauto.
  - destruct P as (done & e & q & later & a & P1 & P2 & P3 & P4 & P5). exists done, e, q, later. split; [exact P1|]. split; [exact P2|].
    split; [apply well_formed_prefix_acc; eauto|]. split; [exact P4|]. destruct P5 as [P5|P5]; [left|right; exact P5].
    rewrite well_formed_prefix_acc. intros [b B]. rewrite arun_app, P3 in B. cbn in B. rewrite P5 in B. discriminate.
Qed.

Lemma prefix_prefix a b : well_formed_prefix (a ++ b) -> well_formed_prefix a.
Proof. intros [r H]. exists (b ++ r). rewrite app_assoc. exact H. Qed.

Theorem emitter_complete g es : well_formed_prefix es -> Forall (valid_event (g_canonical g)) es -> exists m, emit_all (init_emitter g) es = EOk m.
Proof.
  intros W V. pose proof (emitter_accepts g es) as P. destruct (emit_all (init_emitter g) es) as [m|x m|]; [eauto| |contradiction]. exfalso.
  destruct P as (done & e & q & later & -> & _ & _ & _ & [N|N]).
  - apply N. apply (prefix_prefix _ (q ++ later)). rewrite <- app_assoc. exact W.
  - apply N. apply Forall_app in V as [_ V]. inversion V; assumption.
Qed.

(* --- look-ahead --- *)
Definition levels (l : Z) (es : list ev) : Z := fold_left level_after es l.
Definition depth (a : acc) : Z := match a with AStart | ADone => 0 | ADocs => 1 | AIn st => 1 + Z.of_nat (length st) end.
Lemma level_after_shift l e : level_after l e = (l + level_after 0 e)%Z.
Proof. destruct e; cbn; lia. Qed.
Lemma step_depth a e a' : astep a e = Some a' -> (depth a' = depth a + level_after 0 e)%Z.
Proof.
  destruct a as [| |[|f st]|]; intros H; try (destruct e; try discriminate H; injection H as <-; reflexivity).
  destruct e; cbn [astep] in H; try (destruct f; try discriminate H; destruct st; try discriminate H; injection H as <-; cbn [depth length level_after]; lia).
Qed.
Lemma run_depth es : forall a a' l, arun a es = Some a' -> (levels l es = l + depth a' - depth a)%Z.
Proof.
  induction es as [|e r IH]; intros a a' l H; cbn in *.
  - injection H as <-. lia.
  - destruct (astep a e) as [b|] eqn:E; [|discriminate]. apply step_depth in E. change (fold_left level_after r (level_after l e)) with (levels (level_after l e) r). rewrite (IH b a' _ H), (level_after_shift l). lia.
Qed.
(* a queue whose level comes back to zero *)
Lemma closed_app p r : forall l, p <> [] -> levels l p = 0%Z -> never_closed l (p ++ r) = false.
Proof.
  induction p as [|e p IH]; intros l N H; [congruence|]. cbn [app never_closed]. destruct (Z.eqb_spec (level_after l e) 0) as [E|E]; [reflexivity|].
  destruct p as [|e' p]; [cbn in H; congruence|]. apply IH; [discriminate|exact H].
Qed.
Lemma closed_below p : forall l, (1 <= l)%Z -> (levels l p <= 0)%Z -> never_closed l p = false.
Proof.
  induction p as [|e p IH]; intros l L H; [cbn in H; lia|]. cbn [never_closed]. destruct (Z.eqb_spec (level_after l e) 0) as [E|E]; [reflexivity|].
  apply IH; [|exact H]. assert (l - 1 <= level_after l e)%Z by (destruct e; cbn; lia). lia.
Qed.

(* the events kept back *)
Definition opens (e : ev) : option nat :=
  match e with EDocStart _ _ _ => Some 0%nat | ESeqStart _ _ _ _ => Some 1%nat | EMapStart _ _ _ _ => Some 2%nat | _ => None end.
Lemma need_more_spec e q : need_more (e :: q) = true -> exists n, opens e = Some n /\ (length q <= n)%nat /\ never_closed 0 (e :: q) = true.
Proof.
  intros H. cbn [need_more] in H. unfold opens.
  assert (L : nlen (e :: q) = 1 + N.of_nat (length q)) by (unfold nlen; cbn [length]; lia). rewrite L in H.
  destruct e; try discriminate H; match type of H with (if ?n <? _ then _ else _) = _ => destruct (N.ltb_spec n (1 + N.of_nat (length q))); [discriminate H|] end;
  eexists; (split; [reflexivity|]); (split; [lia|exact H]).
Qed.

Theorem emitter_lookahead g es m : emit_all (init_emitter g) es = EOk m ->
  match m_events m with
  | [] => True
  | e :: q => (exists n, opens e = Some n /\ (length q <= n)%nat) /\ forall t r, m_events m <> events_of t ++ r
  end.
Proof.
  intros H. pose proof (run_progress g es) as P. rewrite H in P. destruct P as (done & a & _ & _ & _ & _ & _ & N).
  destruct (m_events m) as [|e q] eqn:Q; [exact I|]. apply need_more_spec in N as (n & O & L & C). split; [eauto|].
  intros t r E. rewrite E in C. rewrite closed_app in C; [discriminate| |].
  - destruct t; discriminate.
  - rewrite (run_depth _ _ _ 0%Z (arun_node t FSeq FSeq [] eq_refl)). lia.
Qed.
Theorem emitter_finishes g es : well_formed es -> Forall (valid_event (g_canonical g)) es ->
  exists m, emit_all (init_emitter g) es = EOk m /\ m_events m = [] /\ m_state m = EndState.
Proof.
  intros W V. destruct (emitter_complete g es) as [m E]; [|exact V|].
  { exists []. rewrite app_nil_r. exact W. }
  exists m. split; [exact E|]. pose proof (run_progress g es) as P. rewrite E in P. destruct P as (done & a & P1 & P2 & P3 & _ & _ & N).
  apply well_formed_acc in W. rewrite P1, arun_app, P2 in W.
  assert (Q : m_events m = []).
  { destruct (m_events m) as [|e q] eqn:Q; [reflexivity|exfalso]. apply need_more_spec in N as (n & O & L & C).
    cbn [arun] in W. destruct (astep a e) as [b|] eqn:S; [|discriminate].
    cbn [never_closed] in C. destruct (level_after 0 e =? 0)%Z; [discriminate|].
    assert (l1 : level_after 0 e = 1%Z) by (destruct e; try discriminate O; reflexivity). rewrite l1 in C.
    rewrite closed_below in C; [discriminate|lia|]. rewrite (run_depth _ _ _ 1%Z W). cbn [depth].
    pose proof (step_depth _ _ _ S) as D. assert (1 <= depth a)%Z; [|lia].
    destruct a; cbn [depth]; try lia; [destruct e; discriminate O + discriminate S|destruct e; discriminate S]. }
  split; [exact Q|]. rewrite Q in W. cbn in W. injection W as ->. destruct P3 as [A _ _ _ _]. inversion A; congruence.
Qed.
