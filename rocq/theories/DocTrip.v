(* What is emitted is parsed back. *)
From Verif Require Import Base ReaderModel ReaderSpec Utf8Spec Utf8Lemmas CharSpec Types WriterModel WriterSpec ParserModel ParserFinal GrammarProofs PenModel PenText EmitModel EmitSpec EmitLoop EmitInv EmitOut EmitWrite TreeSpec EventAcc EmitIOModel EmitSettings GrammarSpec AgreeSpec RoundSpec TripSpec EmitRun DocText DocRead DocEmit.
From Verif Require ScannerModel ScanStep ReadFlow EagerScan PlanFree.

(* ---- the depth ---- *)
Lemma agrees_height c x : forall x', agrees c x x' -> height x' = height x.
Proof.
  induction x as [a|a t v pi qi style|a t i style xs IH|a t i style ps IH] using tree_induction; intros x' A; inversion A as [|? ? ? ? ? ? ? ? ? ? T S F|? ? ? ? ? ? ? xs' T S F|? ? ? ? ? ? ? ps' T S F]; subst; try reflexivity.
  - cbn [height]. f_equal. f_equal. clear T S A. induction F as [|y y' ys ys' Ay F IHF]; [reflexivity|]. inversion IH as [|? ? I1 I2]; subst. cbn [map]. rewrite (I1 _ Ay), (IHF I2). reflexivity.
  - cbn [height]. f_equal. f_equal. clear T S A. induction F as [|y y' ys ys' [A1 A2] F IHF]; [reflexivity|]. inversion IH as [|? ? [I1 I3] I2]; subst. cbn [map]. rewrite (I1 _ A1), (I3 _ A2), (IHF I2). reflexivity.
Qed.

(* ---- canonical mode ---- *)
Lemma agrees_canonical x : forall x', agrees true x x' -> events_of x' = map canonical_event (events_of x).
Proof.
  induction x as [a|a t v pi qi style|a t i style xs IH|a t i style ps IH] using tree_induction; intros x' A; inversion A as [|? ? ? ? ? ? ? ? ? ? T S F|? ? ? ? ? ? ? xs' T S F|? ? ? ? ? ? ? ps' T S F]; subst; try reflexivity.
  - destruct S as [S|[S _]]; [|discriminate]. subst. cbn [events_of map canonical_event]. unfold scalar_tag_read in T. cbn [orb] in T.
    assert (E : t' = match t with Some t => Some (utf8 t) | None => if qi then None else Some [0x21] end) by (destruct t; exact T).
    destruct F as [[F|(_ & F & _)] F2]; [|discriminate]. rewrite <- E, F, F2. reflexivity.
  - specialize (S (or_introl eq_refl)). subst style'. unfold coll_tag_read in T. cbn [orb] in T. cbn [events_of]. rewrite map_cons, map_app. cbn [canonical_event map].
    assert (E : t' = option_map utf8 t) by (destruct t; exact T). rewrite <- E. f_equal. f_equal. clear T A E. induction F as [|y y' ys ys' Ay F IHF]; [reflexivity|]. inversion IH as [|? ? I1 I2]; subst. cbn [flat_map]. rewrite map_app, (I1 _ Ay), (IHF I2). reflexivity.
  - specialize (S (or_introl eq_refl)). subst style'. unfold coll_tag_read in T. cbn [orb] in T. cbn [events_of]. rewrite map_cons, map_app. cbn [canonical_event map].
    assert (E : t' = option_map utf8 t) by (destruct t; exact T). rewrite <- E. f_equal. f_equal. clear T A E. induction F as [|y y' ys ys' [A1 A2] F IHF]; [reflexivity|]. inversion IH as [|? ? [I1 I3] I2]; subst. destruct y as [k v], y' as [k' v']. cbn [fst snd flat_map] in *. rewrite !map_app, (I1 _ A1), (I3 _ A2), (IHF I2). reflexivity.
Qed.

(* ---- the parser on a token list ---- *)
Lemma parse_all_mono n : forall p es, parse_all n p = (es, Parsed) -> forall n', (n <= n')%nat -> parse_all n' p = (es, Parsed).
Proof.
  induction n as [|n IH]; intros p es H n' L; [discriminate H|]. destruct n' as [|n']; [lia|]. cbn [parse_all] in *.
  destruct (parse p) as [e p'|p'|p'|]; auto. destruct (parse_all n p') as [es0 r] eqn:E. injection H as <- ->. rewrite (IH p' es0 E n') by lia. reflexivity.
Qed.

(* ---- text ---- *)
Theorem text_delivers g enc nest ds text : (2 <= g_indent g <= 9)%Z -> g_break g <> AnyBreak -> (0 < nest <= 2147483647)%Z -> stream_text g ds text -> Forall (shallow nest) ds ->
  delivers enc nest text (stream_events (mkStreamTree enc ds)).
Proof.
  intros Hi Hb Hn T Sh.
  destruct (stream_read enc nest g Hb Hi ltac:(apply Hn) ltac:(unfold ScanStep.fits; cbn; lia) ds text T) as (n & final & E & Fi & St).
  { eapply Forall_impl; [|exact Sh]. intros d [H1 H2]. split; [unfold ReadFlow.room; cbn [length]; lia|exact H2]. }
  destruct (EagerScan.eager_delivers enc nest text [] n final E Fi) as (c & l & L & Tk & Dp). exists c, l. split.
  { intros plan n0 L0. rewrite (PlanFree.scan_plan_free enc nest text plan []). apply L. exact L0. }
  rewrite <- Tk in St. destruct (complete_implemented l l [] (mkStreamTree enc ds) (Datatypes.S (4 * length l)) (eq_sym (app_nil_r l)) Dp (common_implemented _ _ St) ltac:(lia)) as (evs & P & M).
  exists (Datatypes.S (4 * length l)), evs. split; [|exact M]. intros n0 L0. exact (parse_all_mono _ _ _ P n0 L0).
Qed.

(* ---- from events to events ---- *)
Lemma all_emitted g es m : well_formed es -> emit_all (init_emitter g) es = EOk m -> m_events m = [].
Proof.
  intros W E. pose proof (run_progress g es) as P. rewrite E in P. destruct P as (done' & a & P1 & P2 & P3 & P4 & _ & N).
  destruct (m_events m) as [|e0 q0] eqn:Q; [reflexivity|]. exfalso. apply well_formed_acc in W. rewrite P1, arun_app, P2 in W. cbn [arun] in W.
  apply need_more_spec in N as (n & O' & L & C). destruct (astep a e0) as [b|] eqn:S; [|discriminate].
  cbn [never_closed] in C. destruct (level_after 0 e0 =? 0)%Z; [discriminate|].
  assert (l1 : level_after 0 e0 = 1%Z) by (destruct e0; try discriminate O'; reflexivity). rewrite l1 in C.
  rewrite closed_below in C; [discriminate|lia|]. rewrite (run_depth _ _ _ 1%Z W). cbn [depth].
  pose proof (step_depth _ _ _ S) as D. assert (1 <= depth a)%Z; [|lia].
  destruct a; cbn [depth]; try lia; [destruct e0; discriminate O' + discriminate S|destruct e0; discriminate S].
Qed.
Theorem emitted_text g s m : Forall text_event (stream_events s) -> emit_all (init_emitter g) (stream_events s) = EOk m ->
  Forall (doc_nice (g_canonical g) (g_indent (m_cfg m)) (g_width (m_cfg m))) (st_docs s) -> (forall d r, st_docs s = d :: r -> ~ invisible (g_canonical g) d) ->
  m_cfg m = normalise g (st_encoding s) /\
  exists body ds, written (m_pen m) = (if encoding_eqb (g_encoding (m_cfg m)) Utf8Enc then [] else [0xFEFF]) ++ body /\ stream_text (m_cfg m) ds body /\ Forall2 (doc_agrees (g_canonical g)) (st_docs s) ds.
Proof.
  intros Tx E Hn Vi. pose proof (all_emitted g _ m (ex_intro _ s eq_refl) E) as Ev. pose proof (emitted_run g _ m E Ev) as R.
  destruct s as [enc ds]. cbn [st_docs st_encoding] in *.
  assert (G : p_ops (m_pen m) <> []).
  { pose proof (run_out g _ Tx) as K. rewrite E in K. destruct K as (a & (I' & O & Fl) & _).
    assert (a = ADone).
    { pose proof (run_progress g (stream_events (mkStreamTree enc ds))) as P. rewrite E in P. destruct P as (done' & a' & P1 & P2 & P3 & P4 & _ & N).
      rewrite Ev, app_nil_r in P1. subst done'. rewrite (proj1 (well_formed_acc _) (ex_intro _ _ eq_refl)) in P2. injection P2 as <-. destruct P3 as [X _ _ _ _]. destruct I' as [X' _ _ _ _].
      assert (Es : m_state m = EndState) by (inversion X; congruence). rewrite Es in X'. inversion X' as [| | | |? ? ? X1]; subst; [reflexivity|]. cbn in X1. discriminate. }
    subst a. destruct (Fl eq_refl) as [ops Eo]. rewrite Eo. intros Z. apply app_eq_nil in Z as [_ Z]. discriminate. }
  destruct (run_settings g _ m enc Tx E G) as [G1 G2].
  destruct (stream_run g enc ds m) as (G3 & body & ds' & C & T & A); [rewrite <- G1, <- G2; exact Hn|exact Vi|exact R|].
  split; [exact G3|]. exists body, ds'. rewrite G3. split; [exact C|]. split; assumption.
Qed.

Lemma shallow_agrees c nest ds ds' : Forall2 (doc_agrees c) ds ds' -> Forall (shallow nest) ds -> Forall (shallow nest) ds'.
Proof.
  induction 1 as [|d d' ds ds' A F IH]; intros S; [constructor|]. inversion S as [|? ? S1 S2]; subst. constructor; [|exact (IH S2)].
  destruct A as (_ & _ & _ & _ & A). unfold shallow in *. rewrite (agrees_height _ _ _ A). exact S1.
Qed.
Theorem text_trip g s m enc nest : Forall text_event (stream_events s) -> emit_all (init_emitter g) (stream_events s) = EOk m ->
  Forall (doc_nice (g_canonical g) (g_indent (m_cfg m)) (g_width (m_cfg m))) (st_docs s) -> (forall d r, st_docs s = d :: r -> ~ invisible (g_canonical g) d) ->
  (0 < nest <= 2147483647)%Z -> Forall (shallow nest) (st_docs s) ->
  exists body ds, written (m_pen m) = (if encoding_eqb (g_encoding (m_cfg m)) Utf8Enc then [] else [0xFEFF]) ++ body /\ Forall2 (doc_agrees (g_canonical g)) (st_docs s) ds /\
    delivers enc nest body (stream_events (mkStreamTree enc ds)).
Proof.
  intros Tx E Hn Vi Ne Sh. destruct (emitted_text g s m Tx E Hn Vi) as (G & body & ds & C & T & A). exists body, ds. split; [exact C|]. split; [exact A|].
  rewrite G in T. destruct (normalise_ok g (st_encoding s)) as (N1 & _ & _ & N4). apply (text_delivers _ enc nest ds body N1 N4 Ne T). eapply shallow_agrees; eassumption.
Qed.
Theorem byte_trip plan g s m w nest : Forall text_event (stream_events s) -> emit_io plan g (stream_events s) = IOk m w -> nlen (accepted w) < MAX_FILE_SIZE ->
  Forall (doc_nice (g_canonical g) (g_indent (m_cfg m)) (g_width (m_cfg m))) (st_docs s) -> (forall d r, st_docs s = d :: r -> ~ invisible (g_canonical g) d) ->
  (0 < nest <= 2147483647)%Z -> Forall (shallow nest) (st_docs s) ->
  exists ds, Forall2 (doc_agrees (g_canonical g)) (st_docs s) ds /\
    parsed_as nest (accepted w) (g_encoding (m_cfg m)) (stream_events (mkStreamTree (g_encoding (m_cfg m)) ds)).
Proof.
  intros Tx E L Hn Vi Ne Sh. pose proof (write_failure_reported plan g _ Tx) as W. rewrite E in W. destruct W as [W _].
  destruct (text_trip g s m (g_encoding (m_cfg m)) nest Tx W Hn Vi Ne Sh) as (body & ds & C & A & D). exists ds. split; [exact A|]. exists body. split; [|exact D].
  intros plan2 reqs P R. destruct (read_back plan g _ m w plan2 reqs Tx (ex_intro _ s eq_refl) E L P R) as (body' & C' & R'). rewrite R'. f_equal. f_equal.
  unfold written in C. rewrite C in C'. apply app_inv_head in C'. symmetry. exact C'.
Qed.
Lemma canonical_docs ds ds' : Forall2 (doc_agrees true) ds ds' -> Forall2 canonical_doc ds ds'.
Proof.
  induction 1 as [|d d' ds ds' A F IH]; constructor; [|exact IH]. destruct A as (A1 & A2 & A3 & A4 & A5). split; [exact A1|]. split; [exact A2|]. split; [apply A3; left; reflexivity|]. split; [exact A4|]. apply agrees_canonical. exact A5.
Qed.
Theorem canonical_trip plan g s m w nest : g_canonical g = true -> Forall text_event (stream_events s) -> emit_io plan g (stream_events s) = IOk m w -> nlen (accepted w) < MAX_FILE_SIZE ->
  Forall (doc_nice true 0 0) (st_docs s) -> (0 < nest <= 2147483647)%Z -> Forall (shallow nest) (st_docs s) ->
  exists ds, Forall2 canonical_doc (st_docs s) ds /\
    parsed_as nest (accepted w) (g_encoding (m_cfg m)) (stream_events (mkStreamTree (g_encoding (m_cfg m)) ds)).
Proof.
  intros Ca Tx E L Hn Ne Sh. destruct (byte_trip plan g s m w nest Tx E L) as (ds & A & P); try assumption.
  - rewrite Ca. eapply Forall_impl; [|exact Hn]. intros d [H1 H2]. split; [exact H1|]. eapply Forall_impl; [|exact H2]. intros e H. destruct e; try exact H. destruct H as (H3 & H4 & _). split; [exact H3|]. split; [exact H4|discriminate].
  - intros d r _ (X & _). congruence.
  - exists ds. split; [|exact P]. apply canonical_docs. rewrite <- Ca. exact A.
Qed.

(* ---- what bytes give is determined ---- *)
Lemma utf8_injective c d : utf8_enc c = utf8_enc d -> c = d.
Proof.
  assert (Q : forall x y k, k <> 0 -> x / k = y / k -> x mod k = y mod k -> x = y) by (intros x y k K E1 E2; rewrite (N.div_mod x k K), (N.div_mod y k K), E1, E2; reflexivity).
  assert (R : forall x a b, a <> 0 -> b <> 0 -> x / a / b = x / (a * b)) by (intros; apply N.div_div; assumption).
  assert (P : forall a b c', a + b = a + c' -> b = c') by (intros; lia).
  assert (T2 : forall a b c' d' e f : N, [a + b; c' + d'] = [a + e; c' + f] -> b = e /\ d' = f) by (intros a b c' d' e f H; injection H; intros H2 H1; apply P in H1, H2; auto).
  assert (T3 : forall a b c' d' e f x y : N, [a + b; c' + d'; c' + e] = [a + f; c' + x; c' + y] -> b = f /\ d' = x /\ e = y) by (intros a b c' d' e f x y H; injection H; intros H3 H2 H1; apply P in H1, H2, H3; auto).
  assert (T4 : forall a b c' d' e f x y z t : N, [a + b; c' + d'; c' + e; c' + f] = [a + x; c' + y; c' + z; c' + t] -> b = x /\ d' = y /\ e = z /\ f = t) by (intros a b c' d' e f x y z t H; injection H; intros H4 H3 H2 H1; apply P in H1, H2, H3, H4; auto).
  unfold utf8_enc. destruct (c <? 0x80); destruct (d <? 0x80); [intros H; injection H; auto| | |]; destruct (c <? 0x800); try (destruct (d <? 0x800)); try (destruct (c <? 0x10000)); try (destruct (d <? 0x10000)); intros H; try discriminate H.
  all: first [apply T4 in H as (H1 & H2 & H3 & H4); apply (Q c d 64 ltac:(discriminate)); [|exact H4]; apply (Q _ _ 64 ltac:(discriminate)); [|exact H3]; rewrite !R by discriminate; apply (Q _ _ 64 ltac:(discriminate)); [|exact H2]; rewrite !R by discriminate; exact H1
    |apply T3 in H as (H1 & H2 & H3); apply (Q c d 64 ltac:(discriminate)); [|exact H3]; apply (Q _ _ 64 ltac:(discriminate)); [|exact H2]; rewrite !R by discriminate; exact H1
    |apply T2 in H as (H1 & H2); exact (Q c d 64 ltac:(discriminate) H1 H2)].
Qed.
Lemma delivers_unique enc nest text es es' : delivers enc nest text es -> delivers enc nest text es' -> es = es'.
Proof.
  intros (c & l & S & k & evs & P & <-) (c' & l' & S' & k' & evs' & P' & <-).
  pose proof (S [] (c + c')%nat ltac:(lia)) as E. rewrite (S' [] (c + c')%nat ltac:(lia)) in E. injection E as ->.
  pose proof (P (k + k')%nat ltac:(lia)) as E. rewrite (P' (k + k')%nat ltac:(lia)) in E. injection E as ->. reflexivity.
Qed.
Theorem parsed_unique nest input enc enc' es es' : parsed_as nest input enc es -> parsed_as nest input enc' es' -> enc = enc' /\ es = es'.
Proof.
  intros (t & R & D) (t' & R' & D'). pose proof (R [] [] (Forall_nil _) (Forall_nil _)) as E. rewrite (R' [] [] (Forall_nil _) (Forall_nil _)) in E. injection E as E ->.
  assert (t = t') as ->. { clear - E. revert t E. induction t' as [|c t' IH]; intros [|d t] E; try discriminate; [reflexivity|]. cbn [map] in E. injection E as E1 E2. rewrite (utf8_injective _ _ E1), (IH t E2). reflexivity. }
  split; [reflexivity|]. eapply delivers_unique; eassumption.
Qed.

Lemma computed_delivers enc nest text n l k evs : ScannerSpec.scan_all n (ScannerModel.init_scanner enc nest text false []) = (l, ScannerSpec.Ended) ->
  parse_all k (init_parser l) = (evs, Parsed) -> delivers enc nest text (map e_ev evs).
Proof.
  intros S P. exists n, l. split; [|exists k, evs; split; [intros k' Lk; exact (parse_all_mono _ _ _ P _ Lk)|reflexivity]].
  intros plan n' L. rewrite (PlanFree.scan_plan_free enc nest text plan []). exact (EagerScan.scan_all_mono _ _ _ S _ L).
Qed.
Lemma computed enc nest text n es :
  (let (l, o) := ScannerSpec.scan_all n (ScannerModel.init_scanner enc nest text false []) in let (evs, o') := parse_all n (init_parser l) in (o, o', map e_ev evs)) = (ScannerSpec.Ended, Parsed, es) ->
  delivers enc nest text es.
Proof.
  destruct (ScannerSpec.scan_all n _) as [l o] eqn:S. destruct (parse_all n _) as [evs o'] eqn:P. intros X. injection X as -> -> <-. exact (computed_delivers _ _ _ _ _ _ _ S P).
Qed.
Lemma parsed_delivers nest input enc enc' es text : parsed_as nest input enc es -> read_all AnyEnc input [] [] = Text (map utf8_enc text) enc' -> enc = enc' /\ delivers enc nest text es.
Proof.
  intros (t & R & D) E. pose proof (R [] [] (Forall_nil _) (Forall_nil _)) as E'. rewrite E in E'. injection E' as E' ->. split; [reflexivity|].
  assert (t = text) as ->; [|exact D]. clear - E'. revert t E'. induction text as [|c t' IH]; intros [|d t] E; try discriminate; [reflexivity|]. cbn [map] in E. injection E as E1 E2. rewrite (utf8_injective _ _ E1), (IH t E2). reflexivity.
Qed.

(* ---- documents ---- *)
Definition count_docs (es : list ev) : nat := length (filter (fun e => match e with EDocStart _ _ _ => true | _ => false end) es).
Lemma count_app a b : count_docs (a ++ b) = (count_docs a + count_docs b)%nat.
Proof. unfold count_docs. rewrite filter_app, app_length. reflexivity. Qed.
Lemma count_tree x : count_docs (events_of x) = O.
Proof.
  induction x as [a|a t v pi qi style|a t i style xs IH|a t i style ps IH] using tree_induction; try reflexivity.
  - cbn [events_of]. change (count_docs (flat_map events_of xs ++ [ESeqEnd]) = O). rewrite count_app. cbn. rewrite Nat.add_0_r. induction IH as [|y ys H IH IH2]; [reflexivity|]. cbn [flat_map]. rewrite count_app, H, IH2. reflexivity.
  - cbn [events_of]. match goal with |- count_docs (_ :: ?x ++ ?y) = O => change (count_docs (x ++ y) = O) end. rewrite count_app. cbn. rewrite Nat.add_0_r. induction IH as [|[k v] ys [H H'] IH IH2]; [reflexivity|]. cbn [flat_map fst snd] in *. rewrite !count_app, H, H', IH2. reflexivity.
Qed.
Lemma documents_events enc ds : count_docs (stream_events (mkStreamTree enc ds)) = length ds.
Proof.
  unfold stream_events. cbn [st_docs st_encoding]. match goal with |- count_docs (_ :: ?x ++ ?y) = _ => change (count_docs (x ++ y) = length ds) end. rewrite count_app. cbn. rewrite Nat.add_0_r. induction ds as [|d ds IH]; [reflexivity|]. cbn [flat_map length]. rewrite count_app, IH.
  unfold doc_events. match goal with |- (count_docs (_ :: ?x ++ ?y) + _ = _)%nat => change (count_docs (_ :: x ++ y)) with (Datatypes.S (count_docs (x ++ y))) end. rewrite count_app, count_tree. reflexivity.
Qed.
Theorem documents_kept plan g s m w nest : Forall text_event (stream_events s) -> emit_io plan g (stream_events s) = IOk m w -> nlen (accepted w) < MAX_FILE_SIZE ->
  Forall (doc_nice (g_canonical g) (g_indent (m_cfg m)) (g_width (m_cfg m))) (st_docs s) -> (forall d r, st_docs s = d :: r -> ~ invisible (g_canonical g) d) ->
  (0 < nest <= 2147483647)%Z -> Forall (shallow nest) (st_docs s) ->
  exists es, parsed_as nest (accepted w) (g_encoding (m_cfg m)) es /\ count_docs es = length (st_docs s) /\ count_docs (stream_events s) = length (st_docs s).
Proof.
  intros Tx E L Hn Vi Ne Sh. destruct (byte_trip plan g s m w nest Tx E L Hn Vi Ne Sh) as (ds & A & P). eexists. split; [exact P|]. rewrite documents_events. split; [clear - A; induction A; cbn; congruence|]. destruct s. apply documents_events.
Qed.
