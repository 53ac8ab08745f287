(* The emitter's queue, stacks and directives: what a call gives and takes. *)
From Coq Require Import Permutation.
From Verif Require Import Base ReaderModel Types DocModel DumperModel HeapModel HeapSpec HeapLemmas HeapEvents HeapDocs HeapLoader HeapEmitModel HeapEmitSpec.

Definition wf_em (m : em) : Prop :=
  a_at (m_states m) <> None /\ a_at (m_events m) <> None /\ a_at (m_indents m) <> None /\ a_at (m_tags m) <> None /\
  Forall sound_event (a_els (m_events m)) /\ Forall nonnull (a_els (m_tags m)).
Definition same_em (m m' : em) : Prop := m_opened m' = m_opened m /\ m_closed m' = m_closed m /\ m_log m' = m_log m.
Definition blame (h : heap) (m m' : em) (ok : bool) : Prop :=
  (ok = false -> m_error m' <> None) /\ (generous h -> m_error m' = Some MMemory -> m_error m = Some MMemory).
Ltac emu := unfold em_blocks in *; cbn [m_fail m_with_in m_with_states m_with_events m_with_indents m_with_tags m_with_flags m_with_log
  m_in m_error m_opened m_closed m_buffer m_raw m_states m_events m_indents m_tags m_log] in *.

Lemma same_refl m : same_em m m. Proof. repeat split. Qed.
Lemma same_trans a b c : same_em a b -> same_em b c -> same_em a c.
Proof. intros (?&?&?) (?&?&?). repeat split; congruence. Qed.
Lemma blame_refl h m : blame h m m true. Proof. split; [discriminate|auto]. Qed.

Lemma h_peep_ok p h : holds h (ptr_blocks p) -> h_peep p h = HOk tt h.
Proof. intros H. unfold h_peep. destruct p as [b|]; [|reflexivity]. apply h_touch_ok; [congruence|exact H]. Qed.
Lemma h_peeps_ok l h : Forall (fun p => holds h (ptr_blocks p)) l -> h_peeps l h = HOk tt h.
Proof.
  induction 1 as [|p l P _ IH]; [reflexivity|]. cbn [h_peeps]. unfold hbind. rewrite h_peep_ok by exact P. exact IH.
Qed.
Lemma pairs_peeps l h : holds h (flat_map pair_blocks l) -> Forall (fun p => holds h (ptr_blocks p)) (flat_map (fun p : hpair => [fst p; snd p]) l).
Proof.
  induction l as [|p l IH]; intros H; cbn [flat_map app] in *; [apply Forall_nil|].
  constructor; [clear IH; cn|]. constructor; [clear IH; cn|]. apply IH. clear IH. cn.
Qed.
Lemma event_peeps e h : holds h (ev_blocks e) -> Forall (fun p => holds h (ptr_blocks p)) (event_ptrs e).
Proof.
  intros H. destruct e as [| | |v tags i| | | | | | |]; cbn [event_ptrs ev_blocks] in *; try apply Forall_nil.
  - constructor; [cn|]. constructor; [cn|]. apply pairs_peeps. cn.
  - constructor; [cn|apply Forall_nil].
  - constructor; [cn|]. constructor; [cn|]. constructor; [cn|apply Forall_nil].
  - constructor; [cn|]. constructor; [cn|apply Forall_nil].
  - constructor; [cn|]. constructor; [cn|apply Forall_nil].
Qed.

Lemma find_handle_ok at_ els handle h : at_ <> None -> Forall nonnull els -> holds h (flat_map pair_blocks els ++ ptr_blocks at_) ->
  exists b, h_find_handle at_ els handle h = HOk b h.
Proof.
  intros A. induction 1 as [|p els P _ IH]; intros H; cbn [h_find_handle]; [eexists; reflexivity|].
  cbn [flat_map] in H. unfold hbind at 1. rewrite h_touch_ok; [|exact A|clear IH; cn]. unfold hbind at 1. rewrite h_read_ok; [|apply P|clear IH; cn].
  destruct (str_eqb _ _); [eexists; reflexivity|]. apply IH. clear IH. cn.
Qed.
Definition acts (h : heap) (m : em) (r : em * bool) (g : list nat) (h' : heap) : Prop :=
  g = em_blocks (fst r) /\ wf_em (fst r) /\ m_events (fst r) = m_events m /\ same_em m (fst r) /\ blame h m (fst r) (snd r).
Ltac wfs := unfold wf_em in *; emu; intuition congruence.

Lemma append_directive_does m handle prefix dup h : good h -> wf_em m -> holds h (em_blocks m) ->
  does (h_append_directive m handle prefix dup) h (em_blocks m) (acts h m).
Proof.
  intros G W H. pose proof (ext_refl h) as X. unfold does, h_append_directive. pose proof W as (W1 & W2 & W3 & W4 & W5 & W6).
  destruct (find_handle_ok (a_at (m_tags m)) (a_els (m_tags m)) handle h W4 W6) as (b & Eb); [emu; clear - H; cn|].
  rewrite (bind_ok _ _ _ _ _ Eb). destruct b.
  { eapply ends_ret; [exact G|exact X| |].
    2:{ split; [reflexivity|]. destruct dup; cbn [fst snd].
        - split; [exact W|]. split; [reflexivity|]. split; [apply same_refl|apply blame_refl].
        - split; [exact W|]. split; [reflexivity|]. split; [repeat split|]. split; [discriminate|]. intros _ F. discriminate F. }
    destruct dup; cbn [fst]; emu; clear - H; cn. }
  call (h_malloc_does handle h G). destruct Rc as (-> & _ & Y1). call (h_malloc_does prefix hc Gc). destruct Rc as (-> & _ & Y2).
  assert (Err : forall m' h1, good h1 -> ext h h1 -> ~ generous h -> wf_em m' -> same_em m m' -> m_events m' = m_events m -> changes h (em_blocks m) (em_blocks m' ++ ptr_blocks a ++ ptr_blocks a0) h1 ->
    ends ((h_free a ;;; h_free a0 ;;; hret (m_fail m' MMemory, false)) h1) h (em_blocks m) (acts h m)).
  { clear Xc Xc0 Xc1 Xc2 Y1 Y2 Cc Cc0. intros m' h1 G1 X1 N W' Sm Ev C. freeing. freeing.
    eapply ends_ret; [exact Gf0|exact Xf2| |].
    2:{ split; [reflexivity|]. split; [exact W'|]. split; [exact Ev|]. split; [exact Sm|]. split; [discriminate|]. intros g. contradiction. }
    cbn [fst]. change (em_blocks (m_fail m' MMemory)) with (em_blocks m'). clear - C Cf Cf0. cn. }
  destruct a as [a|]; cbn [is_null orb].
  2:{ apply Err; auto; [intros g; apply Y1; auto|apply same_refl|]. clear - Cc Cc0. cn. }
  destruct a0 as [a0|]; cbn [is_null orb].
  2:{ apply Err; auto; [intros g; apply Y2; [apply Xc, g|reflexivity]|apply same_refl|]. clear - Cc Cc0. cn. }
  eapply ends_bind; [exact Xc2|apply h_push_does; [exact Gc0|exact W4|emu; clear - H Cc Cc0; cn]|]. cbn beta. intros [tags ok] g h3 G3 X3 X4 C3 (-> & P & E & Y). cbn [fst snd] in *.
  destruct ok.
  - eapply ends_ret; [exact G3|exact X4| |].
    2:{ split; [reflexivity|]. cbn [fst snd]. split; [|split; [reflexivity|split; [repeat split|split; [discriminate|auto]]]].
        unfold wf_em. emu. rewrite E. split; [exact W1|]. split; [exact W2|]. split; [exact W3|]. split; [exact P|]. split; [exact W5|].
        apply Forall_app. split; [exact W6|]. constructor; [split; discriminate|apply Forall_nil]. }
    cbn [fst]. emu. unfold tags_blocks in *. rewrite E. clear - Cc Cc0 C3. cn.
  - subst tags. apply Err; auto.
    + intros g. discriminate (Y (proj2 Xc2 g)).
    + split; [|split]; reflexivity.
    + emu. clear - Cc Cc0 C3. cn.
Qed.

Lemma h_pop_unit_does a h : a_at a <> None -> holds h (ptr_blocks (a_at a)) ->
  exists a', h_pop_unit a h = HOk a' h /\ a_at a' = a_at a.
Proof.
  intros A H. unfold h_pop_unit, h_pop. destruct (a_els a) as [|u l] eqn:E; [eexists; split; reflexivity|].
  destruct (rev (u :: l)) as [|x r] eqn:R. { apply (f_equal (@length _)) in R. rewrite rev_length in R. discriminate. }
  unfold hbind. rewrite h_touch_ok by assumption. eexists. split; reflexivity.
Qed.
Lemma flat_nth {A} (f : A -> list nat) l k x b : nth_error l k = Some x -> (cnt (f x) b <= cnt (flat_map f l) b)%nat.
Proof. intros E. rewrite (flat_split f l k x b E). lia. Qed.

Lemma acts_id m h h0 taken : good h -> ext h0 h -> wf_em m -> changes h0 taken (em_blocks m) h ->
  ends (hret (m, true) h) h0 taken (acts h0 m).
Proof.
  intros G X W C. eapply ends_ret; [exact G|exact X|exact C|]. split; [reflexivity|]. split; [exact W|]. split; [reflexivity|]. split; [apply same_refl|apply blame_refl].
Qed.
Lemma still h l : changes h l l h. Proof. intros b. reflexivity. Qed.
Lemma eaction_does m e r x h : good h -> wf_em m -> a_els (m_events m) = e :: r -> holds h (em_blocks m) ->
  does (h_eaction m e x) h (em_blocks m) (acts h m).
Proof.
  intros G W Ee H. pose proof (ext_refl h) as X. unfold does. pose proof W as (W1 & W2 & W3 & W4 & W5 & W6).
  assert (He : holds h (ev_blocks e)). { emu. rewrite Ee in H. cbn [flat_map] in H. clear - H. cn. }
  assert (Fe : sound_event e). { rewrite Ee in W5. inversion W5; assumption. }
  destruct x as [| | | | | |k|handle prefix|]; cbn [h_eaction]; unfold h_push_unit.
  - eapply ends_bind; [exact X|apply h_push_does; [exact G|exact W1|emu; clear - H; cn]|]. cbn beta. intros [a ok] g h1 G1 X1 _ C (-> & P & E & Y). cbn [fst snd] in *.
    eapply ends_ret; [exact G1|exact X1| |].
    2:{ split; [reflexivity|]. destruct ok; cbn [fst snd]; (split; [wfs|]; split; [reflexivity|]; split; [split; [|split]; reflexivity|]; split; [discriminate|]); emu; [auto|].
        intros g. discriminate (Y g). }
    destruct ok; cbn [fst]; emu; clear - C; cn.
  - destruct (h_pop_unit_does (m_states m) h W1) as (a & E & A); [emu; clear - H; cn|]. rewrite (bind_ok _ _ _ _ _ E).
    eapply ends_ret; [exact G|exact X| |].
    2:{ split; [reflexivity|]. cbn [fst snd]. split; [wfs|]. split; [reflexivity|]. split; [split; [|split]; reflexivity|]. split; [discriminate|auto]. }
    cbn [fst]. emu. rewrite A. apply still.
  - eapply ends_bind; [exact X|apply h_push_does; [exact G|exact W3|emu; clear - H; cn]|]. cbn beta. intros [a ok] g h1 G1 X1 _ C (-> & P & E & Y). cbn [fst snd] in *.
    eapply ends_ret; [exact G1|exact X1| |].
    2:{ split; [reflexivity|]. destruct ok; cbn [fst snd]; (split; [wfs|]; split; [reflexivity|]; split; [split; [|split]; reflexivity|]; split; [discriminate|]); emu; [auto|].
        intros g. discriminate (Y g). }
    destruct ok; cbn [fst]; emu; clear - C; cn.
  - destruct (h_pop_unit_does (m_indents m) h W3) as (a & E & A); [emu; clear - H; cn|]. rewrite (bind_ok _ _ _ _ _ E).
    eapply ends_ret; [exact G|exact X| |].
    2:{ split; [reflexivity|]. cbn [fst snd]. split; [wfs|]. split; [reflexivity|]. split; [split; [|split]; reflexivity|]. split; [discriminate|auto]. }
    cbn [fst]. emu. rewrite A. apply still.
  - eapply ends_ok; [apply h_touch_ok; [exact W2|emu; clear - H; cn]|]. eapply ends_ok; [apply h_peeps_ok, event_peeps, He|]. apply acts_id; auto using still.
  - eapply ends_ok; [apply h_peeps_ok; constructor; [emu; clear - H; cn|apply pairs_peeps; emu; clear - H; cn]|]. apply acts_id; auto using still.
  - destruct e as [| | |v tags i| | | | | | |]; try (apply acts_id; auto using still; fail).
    destruct (nth_error (a_els tags) k) as [p|] eqn:Ek; [|apply acts_id; auto using still].
    destruct Fe as [Sa Fn]. cbn [sound_event ev_blocks] in *.
    assert (Hp : holds h (pair_blocks p)). { intros b. pose proof (flat_nth pair_blocks (a_els tags) k p b Ek). specialize (He b). unfold tags_blocks in He. rewrite !cnt_app in He. lia. }
    assert (Np : nonnull p) by (rewrite Forall_forall in Fn; apply Fn; eapply nth_error_In; exact Ek).
    eapply ends_ok; [apply h_touch_ok; [apply Sa; intros F; rewrite F in Ek; destruct k; discriminate|clear - He; cn]|].
    eapply ends_ok; [apply h_read_ok; [apply Np|clear - Hp; cn]|]. eapply ends_ok; [apply h_read_ok; [apply Np|clear - Hp; cn]|].
    apply append_directive_does; assumption.
  - apply append_directive_does; assumption.
  - eapply ends_bind; [exact X|apply (empty_stack_does free_pair pair_blocks); [exact free_pair_does|exact G|intros _; exact W4|emu; clear - H; cn]|]. cbn beta. intros _ g h1 G1 X1 _ C ->.
    eapply ends_ret; [exact G1|exact X1| |].
    2:{ split; [reflexivity|]. cbn [fst snd]. split; [|split; [reflexivity|split; [split; [|split]; reflexivity|split; [discriminate|auto]]]].
        unfold wf_em. emu. cbn [a_at a_els]. repeat (split; [assumption|]). apply Forall_nil. }
    cbn [fst]. emu. clear - C. cn.
Qed.
Lemma acts_trans h h1 m m1 r g h' : ext h h1 -> m_events m1 = m_events m -> same_em m m1 -> blame h m m1 true -> acts h1 m1 r g h' -> acts h m r g h'.
Proof.
  intros X E S [_ B] (A1 & A2 & A3 & A4 & A5). split; [exact A1|]. split; [exact A2|]. split; [congruence|]. split; [eapply same_trans; eassumption|].
  destruct A5 as [A5 A6]. split; [exact A5|]. intros g' F. apply B; [exact g'|]. apply A6; [apply X, g'|exact F].
Qed.
Lemma eactions_does e r xs : forall m h, good h -> wf_em m -> a_els (m_events m) = e :: r -> holds h (em_blocks m) ->
  does (h_eactions m e xs) h (em_blocks m) (acts h m).
Proof.
  induction xs as [|x xs IH]; intros m h G W E H; unfold does; cbn [h_eactions].
  { apply acts_id; auto using ext_refl, still. }
  destruct (eaction_does m e r x h G W E H) as ([m1 ok] & g & h1 & E1 & G1 & X1 & C1 & A). rewrite (bind_ok _ _ _ _ _ E1).
  pose proof A as (A1 & A2 & A3 & A4 & A5). cbn [fst snd] in *. subst g. destruct ok.
  - destruct (IH m1 h1 G1 A2) as (r2 & g & h2 & E2 & G2 & X2 & C2 & A'); [congruence|clear - H C1; cn|].
    exists r2, g, h2. split; [exact E2|]. split; [exact G2|]. split; [eapply ext_trans; eassumption|]. split; [clear - C1 C2; cn|].
    eapply acts_trans; eassumption.
  - eapply ends_ret; [exact G1|exact X1|exact C1|exact A].
Qed.
Lemma step_does e r m h : good h -> wf_em m -> a_els (m_events m) = e :: r -> holds h (em_blocks m) ->
  does (h_step m e) h (em_blocks m) (acts h m).
Proof.
  intros G W E H. unfold does, h_step. destruct (m_in m) as [|[xs success] i].
  { apply acts_id; auto using ext_refl, still. }
  destruct (eactions_does e r xs (m_with_in m i) h G W E H) as ([m1 ok] & g & h1 & E1 & G1 & X1 & C1 & A1 & A2 & A3 & A4 & A5). rewrite (bind_ok _ _ _ _ _ E1). cbn [fst snd] in *.
  eapply ends_ret with (g := em_blocks m1); [exact G1|exact X1|subst g; exact C1|]. destruct A5 as [A5 A6].
  destruct ok; cbn [negb]; [|split; [reflexivity|]; split; [exact A2|]; split; [exact A3|]; split; [exact A4|]; split; [exact A5|exact A6]].
  destruct success; (split; [reflexivity|]; split; [exact A2|]; split; [exact A3|]; split; [exact A4|]); (split; [discriminate|]); [exact A6|].
  intros _ F. discriminate F.
Qed.

(* ---- yaml_emitter_emit ---- *)
Definition emits (h : heap) (m : em) (r : em * bool) (g : list nat) (h' : heap) : Prop :=
  g = em_blocks (fst r) /\ wf_em (fst r) /\ same_em m (fst r) /\ blame h m (fst r) (snd r).
Lemma need_more_some q : h_need_more q = false -> exists e r, q = e :: r.
Proof. destruct q as [|e r]; [discriminate|]. eauto. Qed.
Lemma emit_loop_does n : forall m h, (length (a_els (m_events m)) <= n)%nat -> good h -> wf_em m -> holds h (em_blocks m) ->
  does (h_emit_loop n m) h (em_blocks m) (emits h m).
Proof.
  induction n as [|n IH]; intros m h L G W H; pose proof (ext_refl h) as X; pose proof W as (W1 & W2 & W3 & W4 & W5 & W6); unfold does; cbn [h_emit_loop];
    (eapply ends_ok; [apply h_touch_ok; [exact W2|emu; clear - H; cn]|]); destruct (h_need_more (a_els (m_events m))) eqn:En.
  1, 3: eapply ends_ret; [exact G|exact X|apply still|split; [reflexivity|split; [exact W|split; [apply same_refl|apply blame_refl]]]].
  { destruct (need_more_some _ En) as (e & r & E). rewrite E in L. cbn [length] in L. lia. }
  destruct (need_more_some _ En) as (e & r & E). rewrite E.
  destruct (step_does e r m h G W E H) as ([m1 ok] & g & h1 & E1 & G1 & X1 & C1 & A1 & A2 & A3 & A4 & A5). rewrite (bind_ok _ _ _ _ _ E1). cbn [fst snd] in *. subst g.
  destruct ok; cbn [negb].
  2:{ eapply ends_ret; [exact G1|exact X1|exact C1|]. split; [reflexivity|]. split; [exact A2|]. split; [exact A4|exact A5]. }
  pose proof A2 as (V1 & V2 & V3 & V4 & V5 & V6). assert (E' : a_els (m_events m1) = e :: r) by congruence.
  unfold h_dequeue. rewrite E'. assert (H1 : holds h1 (em_blocks m1)) by (clear - H C1; cn).
  assert (Ht : h_touch (a_at (m_events m1)) h1 = HOk tt h1) by (apply h_touch_ok; [exact V2|emu; clear - H1; cn]).
  assert (Hd : (h_touch (a_at (m_events m1)) ;;; hret (e, mkArr (a_at (m_events m1)) r (S (a_off (m_events m1))) (a_cap (m_events m1)))) h1 = HOk (e, mkArr (a_at (m_events m1)) r (S (a_off (m_events m1))) (a_cap (m_events m1))) h1).
  { unfold hbind. rewrite Ht. reflexivity. }
  rewrite (bind_ok _ _ _ _ _ Hd). set (q := mkArr (a_at (m_events m1)) r (S (a_off (m_events m1))) (a_cap (m_events m1))).
  assert (Fe : sound_event e /\ Forall sound_event r) by (rewrite E' in V5; inversion V5; auto).
  assert (B : forall b, (cnt (em_blocks m1) b = cnt (ev_blocks e) b + cnt (em_blocks (m_with_events m1 q)) b)%nat).
  { intros b. emu. unfold q. rewrite E'. cbn [a_at a_els flat_map]. rewrite !cnt_app. lia. }
  destruct (event_delete_does e h1 G1 (proj1 Fe)) as (u & g & h2 & E2 & G2 & X2 & C2 & ->). { intros b. specialize (H1 b). specialize (B b). lia. }
  rewrite (bind_ok _ _ _ _ _ E2).
  destruct (IH (m_with_events m1 q) h2) as (r3 & g & h3 & E3 & G3 & X3 & C3 & Q1 & Q2 & Q3 & Q4 & Q5).
  { cbn [m_with_events m_events q a_els]. rewrite E in L. cbn [length] in L. lia. }
  { exact G2. }
  { unfold wf_em. emu. cbn [q a_at a_els]. repeat (split; [assumption|]). split; [apply Fe|exact V6]. }
  { intros b. specialize (H1 b). specialize (B b). specialize (C2 b). rewrite cnt_nil in C2. lia. }
  rewrite E3. exists r3, g, h3. split; [reflexivity|]. split; [exact G3|]. split; [eapply ext_trans; [|exact X3]; eapply ext_trans; eassumption|]. split.
  { intros b. specialize (B b). specialize (C1 b). specialize (C2 b). specialize (C3 b). rewrite cnt_nil in C2. lia. }
  split; [exact Q1|]. split; [exact Q2|]. split; [eapply same_trans; [exact A4|exact Q3]|]. split; [exact Q4|].
  intros gn F. apply A5; [exact gn|]. apply (Q5 (proj2 (ext_trans _ _ _ X1 X2) gn) F).
Qed.

(* the event belongs to the emitter, or is gone, whatever happens *)
Definition emitted (h : heap) (m : em) (value : option ev) (r : em * bool) (g : list nat) (h' : heap) : Prop :=
  g = em_blocks (fst r) /\ wf_em (fst r) /\ m_opened (fst r) = m_opened m /\ m_closed (fst r) = m_closed m /\
  m_log (fst r) = m_log m ++ (if snd r then match value with Some x => [x] | None => [] end else []) /\ blame h m (fst r) (snd r).
Lemma emit_does m e h : good h -> wf_em m -> sound_event e -> holds h (em_blocks m ++ ev_blocks e) ->
  does (h_emit m e) h (em_blocks m ++ ev_blocks e) (emitted h m (event_at h e)).
Proof.
  intros G W Fe H. pose proof (ext_refl h) as X. pose proof W as (W1 & W2 & W3 & W4 & W5 & W6). unfold does, h_emit.
  eapply ends_ok; [reflexivity|].
  destruct (h_push_does (m_events m) e h G W2) as ([q ok] & g & h1 & E1 & G1 & X1 & C1 & -> & P & E & Y); [emu; clear - H; cn|]. rewrite (bind_ok _ _ _ _ _ E1). cbn [fst snd] in *.
  destruct ok; cbn [negb].
  2:{ subst q. destruct (event_delete_does e h1 G1 Fe) as (u & g & h2 & E2 & G2 & X2 & C2 & ->); [emu; clear - H C1; cn|]. rewrite (bind_ok _ _ _ _ _ E2).
      eapply ends_ret; [exact G2|eapply ext_trans; eassumption| |].
      2:{ split; [reflexivity|]. cbn [fst snd]. split; [wfs|]. split; [reflexivity|]. split; [reflexivity|]. split; [symmetry; apply app_nil_r|]. split; [discriminate|]. intros g. discriminate (Y g). }
      cbn [fst]. emu. clear - C1 C2. cn. }
  destruct (emit_loop_does (length (a_els q)) (m_with_events m q) h1) as ([m2 ok] & g & h2 & E2 & G2 & X2 & C2 & Q1 & Q2 & (Q3 & Q4 & Q5) & Q6 & Q7).
  { apply Nat.le_refl. }
  { exact G1. }
  { unfold wf_em. emu. rewrite E. repeat (split; [assumption|]). split; [|exact W6]. apply Forall_app. split; [exact W5|]. constructor; [exact Fe|apply Forall_nil]. }
  { emu. rewrite E. clear - H C1. cn. }
  rewrite (bind_ok _ _ _ _ _ E2). cbn [fst snd] in *.
  eapply ends_ret with (g := em_blocks m2); [exact G2|eapply ext_trans; eassumption| |].
  { subst g. emu. rewrite E in C2. clear - C1 C2. cn. }
  destruct ok; (split; [reflexivity|]; cbn [fst snd]; split; [exact Q2|]; split; [exact Q3|]; split; [exact Q4|]; split; [|split; [exact Q6|]]).
  - emu. rewrite Q5. reflexivity.
  - intros gn F. exact (Q7 (proj2 X1 gn) F).
  - emu. rewrite Q5, app_nil_r. reflexivity.
  - intros gn F. exact (Q7 (proj2 X1 gn) F).
Qed.
