(* Two runs of the scanner side by side: tokens, simple keys and indentation. *)
From Verif Require Import Base ReaderModel Utf8Spec CharSpec Types CursorModel ScanModel ScannerModel ScannerSpec ScannerFinal PlanFree LineSpec LineCur LineScan ValueRun.

Section S.
Variable D : N -> N.
Notation nmark := (nmark D).
Notation nerr := (nerr D).
Notation ntoken := (ntoken D).
Notation ok := (ok D).
Notation rw := (rw D).

Definition nkey (k : skey) : skey := mkKey (k_possible k) (k_required k) (k_number k) (nmark (k_mark k)).
Definition ns (s : sc) : sc :=
  mkSc (cu (with_lf (c_text (s_cur s))) (nmark (smark s))) (s_enc s) (s_started s) (s_ended s) (option_map nerr (s_error s)) (s_flow s)
    (map ntoken (s_tokens s)) (s_parsed s) (s_avail s) (s_indents s) (s_indent s) (s_allowed s) (map nkey (s_keys s)) (s_nest s).
Definition key_ok (l : N) (k : skey) : Prop := k_possible k = true -> D (m_line (k_mark k)) <= m_index (k_mark k) /\ m_line (k_mark k) <= l.
Record oks (s : sc) : Prop := {
  o_cur : s_cur s = cu (c_text (s_cur s)) (smark s);
  o_ok : ok 0 (c_text (s_cur s)) (smark s);
  o_keys : Forall (key_ok (m_line (smark s))) (s_keys s) }.

Definition rws {A} (m1 m2 : sm A) (s : sc) (Q : A -> A -> sc -> Prop) : Prop :=
  match m1 s, m2 (ns s) with
  | SOk a1 s1, SOk a2 s2 => s2 = ns s1 /\ oks s1 /\ Q a1 a2 s1
  | SErr e1, SErr e2 => e2 = nerr e1
  | SOk _ _, SErr _ | SErr _, SOk _ _ => False
  | _, _ => True
  end.
Lemma rws_mono {A} (m1 m2 : sm A) s (Q Q' : A -> A -> sc -> Prop) :
  rws m1 m2 s Q -> (forall a1 a2 s', oks s' -> Q a1 a2 s' -> Q' a1 a2 s') -> rws m1 m2 s Q'.
Proof.
  unfold rws. intros H K. destruct (m1 s), (m2 (ns s)); auto. destruct H as (E & O & H). auto.
Qed.
Lemma rws_ret {A} (a1 a2 : A) s (Q : A -> A -> sc -> Prop) : oks s -> Q a1 a2 s -> rws (sret a1) (sret a2) s Q.
Proof. intros O H. cbn. auto. Qed.
Lemma rws_bind {A B} (m1 m2 : sm A) (k1 k2 : A -> sm B) s (Q : B -> B -> sc -> Prop) :
  rws m1 m2 s (fun a1 a2 s' => rws (k1 a1) (k2 a2) s' Q) -> rws (sbind m1 k1) (sbind m2 k2) s Q.
Proof.
  unfold rws at 1. intros H. unfold rws, sbind. destruct (m1 s) as [a1 s1|e1| |], (m2 (ns s)) as [a2 s2|e2| |]; auto; try contradiction.
  - destruct H as (-> & O & H). exact H.
  - destruct (k1 a1 s1); auto.
  - destruct (k1 a1 s1); auto.
Qed.
Lemma rws_get s (Q : sc -> sc -> sc -> Prop) : oks s -> Q s (ns s) s -> rws get get s Q.
Proof. intros O H. cbn. auto. Qed.
Lemma rws_modify f1 f2 s (Q : unit -> unit -> sc -> Prop) : f2 (ns s) = ns (f1 s) -> oks (f1 s) -> Q tt tt (f1 s) -> rws (modify f1) (modify f2) s Q.
Proof. intros E O H. cbn. auto. Qed.
Lemma rws_error {A} o1 o2 p s (Q : A -> A -> sc -> Prop) : o2 = option_map nmark o1 -> rws (serror o1 p) (serror o2 p) s Q.
Proof. intros ->. reflexivity. Qed.
Lemma key_ok_le l l' k : key_ok l k -> l <= l' -> key_ok l' k.
Proof. intros H L P. destruct (H P). split; [assumption|lia]. Qed.
Lemma oks_cur s t m : oks s -> ok (m_line (smark s)) t m -> oks (set_cur s (cu t m)).
Proof.
  intros [E O K] O'. constructor; cbn; [reflexivity|eapply ok_weak; [exact O'|lia]|]. eapply Forall_impl; [|exact K]. intros k Hk. eapply key_ok_le; [exact Hk|apply O'].
Qed.
Lemma rws_lift {A} (m1 m2 : cm A) s (Q : A -> A -> sc -> Prop) : oks s ->
  (ok (m_line (smark s)) (c_text (s_cur s)) (smark s) ->
   rw m1 m2 (c_text (s_cur s)) (smark s) (fun a1 a2 t m => ok (m_line (smark s)) t m /\ (oks (set_cur s (cu t m)) -> Q a1 a2 (set_cur s (cu t m))))) ->
  rws (lift m1) (lift m2) s Q.
Proof.
  intros O H. assert (O' : ok (m_line (smark s)) (c_text (s_cur s)) (smark s)) by (destruct O as [_ [] _]; constructor; auto; lia).
  specialize (H O'). unfold rws, lift. unfold LineCur.rw in H. rewrite <- (o_cur s O) in H.
  change (s_cur (ns s)) with (cu (with_lf (c_text (s_cur s))) (nmark (smark s))).
  destruct (m1 (s_cur s)) as [a1 c1|e1| |], (m2 (cu (with_lf (c_text (s_cur s))) (nmark (smark s)))) as [a2 c2|e2| |]; auto.
  destruct H as (t & m & -> & -> & O1 & HQ). pose proof (oks_cur s t m O O1) as O2. split; [reflexivity|]. auto.
Qed.

(* simple keys *)
Lemma n_possible k : k_possible (nkey k) = k_possible k. Proof. reflexivity. Qed.
Lemma stale_same m : forall ks, Forall (key_ok (m_line m)) ks -> D (m_line m) <= m_index m ->
  match stale m ks with
  | inl ks' => stale (nmark m) (map nkey ks) = inl (map nkey ks') /\ Forall (key_ok (m_line m)) ks'
  | inr e => stale (nmark m) (map nkey ks) = inr (nmark e)
  end.
Proof.
  induction ks as [|k ks IH]; intros H Hm; [split; [reflexivity|constructor]|]. inversion H as [|? ? Hk Hks]; subst. specialize (IH Hks Hm). cbn [stale map].
  destruct (stale m ks) as [ks'|e]; [|rewrite IH; reflexivity]. destruct IH as [-> IH].
  assert (E : k_possible (nkey k) && ((m_line (k_mark (nkey k)) <? m_line (nmark m)) || (m_index (k_mark (nkey k)) + 1024 <? m_index (nmark m)))
    = k_possible k && ((m_line (k_mark k) <? m_line m) || (m_index (k_mark k) + 1024 <? m_index m))).
  { cbn. destruct (k_possible k) eqn:P; [|reflexivity]. destruct (Hk P) as [H1 H2]. cbn [andb].
    destruct (N.ltb_spec (m_line (k_mark k)) (m_line m)); [reflexivity|]. cbn [orb]. assert (El : m_line (k_mark k) = m_line m) by lia. rewrite El in *.
    destruct (N.ltb_spec (m_index (k_mark k) + 1024) (m_index m)); [apply N.ltb_lt|apply N.ltb_ge]; lia. }
  rewrite E. clear E. destruct (k_possible k && ((m_line (k_mark k) <? m_line m) || (m_index (k_mark k) + 1024 <? m_index m))); [|split; [reflexivity|constructor; assumption]]. cbn [k_required nkey].
  destruct (k_required k); [reflexivity|]. split; [reflexivity|]. constructor; [|assumption]. intros P. discriminate P.
Qed.
Lemma oks_keys s ks : oks s -> Forall (key_ok (m_line (smark s))) ks -> oks (set_keys s ks).
Proof. intros [E O K] H. constructor; cbn; auto. Qed.
Lemma oks_index s : oks s -> D (m_line (smark s)) <= m_index (smark s).
Proof. intros [_ [] _]. assumption. Qed.
Lemma q_stale s (Q : unit -> unit -> sc -> Prop) : oks s -> (forall ks, oks (set_keys s ks) -> Q tt tt (set_keys s ks)) -> rws stale_simple_keys stale_simple_keys s Q.
Proof.
  intros O H. unfold rws, stale_simple_keys. pose proof (stale_same (smark s) (s_keys s) (o_keys s O) (oks_index s O)) as K.
  change (smark (ns s)) with (nmark (smark s)). change (s_keys (ns s)) with (map nkey (s_keys s)).
  destruct (stale (smark s) (s_keys s)) as [ks|e]; [destruct K as [-> K]|rewrite K; reflexivity]. pose proof (oks_keys s ks O K). split; [reflexivity|]. auto.
Qed.
Lemma q_remove s (Q : unit -> unit -> sc -> Prop) : oks s -> (forall ks, oks (set_keys s ks) -> Q tt tt (set_keys s ks)) -> rws remove_simple_key remove_simple_key s Q.
Proof.
  intros O H. unfold rws, remove_simple_key. change (smark (ns s)) with (nmark (smark s)). change (s_keys (ns s)) with (map nkey (s_keys s)).
  pose proof (o_keys s O) as K. destruct (s_keys s) as [|k ks] eqn:E; [exact I|]. cbn [map k_possible k_required nkey]. destruct (k_possible k && k_required k); [reflexivity|].
  assert (K' : Forall (key_ok (m_line (smark s))) (mkKey false (k_required k) (k_number k) (k_mark k) :: ks)).
  { inversion K; subst. constructor; [intros P; discriminate P|assumption]. }
  pose proof (oks_keys s _ O K'). split; [reflexivity|]. auto.
Qed.
(* only the cursor and the keys have to do with [oks] *)
Lemma oks_same s s' : oks s -> s_cur s' = s_cur s -> s_keys s' = s_keys s -> oks s'.
Proof. intros [E O K] Hc Hk. constructor; unfold smark in *; rewrite ?Hc, ?Hk; assumption. Qed.
Ltac okay := first [assumption | eapply oks_same; [eassumption|reflexivity|reflexivity]].
Ltac modi := apply rws_modify; [try reflexivity|try okay|].
Lemma nlen_map {A B} (f : A -> B) l : nlen (map f l) = nlen l.
Proof. unfold nlen. rewrite map_length. reflexivity. Qed.
Lemma q_save s (Q : unit -> unit -> sc -> Prop) : oks s -> (forall ks, oks (set_keys s ks) -> Q tt tt (set_keys s ks)) -> (Q tt tt s) -> rws save_simple_key save_simple_key s Q.
Proof.
  intros O H H0. unfold save_simple_key. apply rws_bind, rws_get; [exact O|]. change (s_allowed (ns s)) with (s_allowed s). destruct (s_allowed s); [|apply rws_ret; assumption].
  cbv zeta. apply rws_bind, q_remove; [exact O|]. intros ks O'. 
  assert (K' : oks (set_keys s (mkKey true (negb (in_flow s) && (s_indent s =? Z.of_N (m_column (smark s)))%Z) (s_parsed s + nlen (s_tokens s)) (smark s) :: tl ks))).
  { apply oks_keys; [exact O|]. constructor; [intros _; cbn; split; [apply oks_index; exact O|lia]|]. pose proof (o_keys _ O') as K. cbn in K. destruct ks; [constructor|inversion K; assumption]. }
  apply rws_modify; [|exact K'|apply (H _ K')].
  unfold set_keys, ns. cbn. rewrite nlen_map. destruct ks; reflexivity.
Qed.
Lemma q_increase s (Q : unit -> unit -> sc -> Prop) : oks s -> (forall s', oks s' -> s_cur s' = s_cur s -> Q tt tt s') -> rws increase_flow_level increase_flow_level s Q.
Proof.
  intros O H. unfold increase_flow_level. apply rws_bind, rws_get; [exact O|]. change (s_flow (ns s)) with (s_flow s). destruct (_ =? _); [apply rws_error; reflexivity|].
  assert (O' : oks (set_flow (set_keys s (key0 :: s_keys s)) (s_flow s + 1))).
  { apply (oks_same (set_keys s (key0 :: s_keys s))); [|reflexivity|reflexivity]. apply oks_keys; [exact O|]. constructor; [intros P; discriminate P|apply O]. }
  apply rws_modify; [reflexivity|exact O'|]. apply H; [exact O'|reflexivity].
Qed.
Lemma q_decrease s (Q : unit -> unit -> sc -> Prop) : oks s -> (forall s', oks s' -> s_cur s' = s_cur s -> Q tt tt s') -> rws decrease_flow_level decrease_flow_level s Q.
Proof.
  intros O H. unfold rws, decrease_flow_level. change (s_flow (ns s)) with (s_flow s). change (s_keys (ns s)) with (map nkey (s_keys s)). destruct (_ =? _); [auto|].
  pose proof (o_keys s O) as K. destruct (s_keys s) as [|k ks] eqn:E; [exact I|]. cbn [map]. inversion K; subst.
  assert (O' : oks (set_flow (set_keys s ks) (s_flow s - 1))) by (apply (oks_same (set_keys s ks)); [|reflexivity|reflexivity]; apply oks_keys; assumption).
  split; [reflexivity|]. split; [exact O'|]. apply H; [exact O'|reflexivity].
Qed.

(* tokens *)
Lemma q_enqueue t1 t2 s (Q : unit -> unit -> sc -> Prop) : oks s -> t2 = ntoken t1 -> (forall s', oks s' -> s_cur s' = s_cur s -> Q tt tt s') -> rws (enqueue t1) (enqueue t2) s Q.
Proof.
  intros O -> H. assert (O' : oks (set_tokens s (s_tokens s ++ [t1]))) by okay.
  apply rws_modify; [|exact O'|apply H; [exact O'|reflexivity]]. unfold set_tokens, ns. cbn. rewrite map_app. reflexivity.
Qed.
Lemma q_insert n t1 t2 s (Q : unit -> unit -> sc -> Prop) : oks s -> t2 = ntoken t1 -> (forall q, oks (set_tokens s q) -> Q tt tt (set_tokens s q)) -> rws (queue_insert n t1) (queue_insert n t2) s Q.
Proof.
  intros O -> H. unfold rws, queue_insert. change (s_parsed (ns s)) with (s_parsed s). change (s_tokens (ns s)) with (map ntoken (s_tokens s)). rewrite map_length.
  destruct (_ && _); [|exact I]. set (q := firstn _ (s_tokens s) ++ t1 :: skipn _ (s_tokens s)). assert (O' : oks (set_tokens s q)) by okay.
  split; [|split; [exact O'|apply H; exact O']]. unfold q, set_tokens, ns. cbn. rewrite map_app, firstn_map, skipn_map. reflexivity.
Qed.
Lemma q_roll c n t m1 m2 s (Q : unit -> unit -> sc -> Prop) : oks s -> m2 = nmark m1 -> (forall s', oks s' -> s_cur s' = s_cur s -> Q tt tt s') -> rws (roll_indent c n t m1) (roll_indent c n t m2) s Q.
Proof.
  intros O -> H. unfold roll_indent. apply rws_bind, rws_get; [exact O|]. change (in_flow (ns s)) with (in_flow s). change (s_indent (ns s)) with (s_indent s).
  destruct (in_flow s); [apply rws_ret; auto|]. destruct (s_indent s <? Z.of_N c)%Z; [|apply rws_ret; auto]. destruct (INT_MAX <? c); [apply rws_error; reflexivity|].
  apply rws_bind. modi. destruct n as [n|].
  - apply q_insert; [okay|reflexivity|]. intros q O'. apply H; auto.
  - apply q_enqueue; [okay|reflexivity|]. intros s' O' E'. apply H; auto.
Qed.
Lemma unroll_same m c : forall is i q, unroll (nmark m) c i is (map ntoken q) =
  option_map (fun r => (fst (fst r), snd (fst r), map ntoken (snd r))) (unroll m c i is q).
Proof.
  induction is as [|i' is IH]; intros i q; cbn [unroll]; destruct (c <? i)%Z; try reflexivity.
  change [mkToken TBlockEnd (nmark m) (nmark m) false] with (map ntoken [mkToken TBlockEnd m m false]). rewrite <- map_app. apply IH.
Qed.
Lemma q_unroll c s (Q : unit -> unit -> sc -> Prop) : oks s -> (forall s', oks s' -> s_cur s' = s_cur s -> s_started s' = s_started s -> s_flow s' = s_flow s -> Q tt tt s') -> rws (unroll_indent c) (unroll_indent c) s Q.
Proof.
  intros O H. unfold rws, unroll_indent. change (in_flow (ns s)) with (in_flow s). change (smark (ns s)) with (nmark (smark s)). change (s_indent (ns s)) with (s_indent s).
  change (s_indents (ns s)) with (s_indents s). change (s_tokens (ns s)) with (map ntoken (s_tokens s)). rewrite unroll_same.
  destruct (in_flow s); [auto|]. destruct (unroll (smark s) c (s_indent s) (s_indents s) (s_tokens s)) as [[[i is] q]|]; [|exact I]. cbn [option_map fst snd].
  assert (O' : oks (set_tokens (set_indents s i is) q)) by okay. split; [reflexivity|]. split; [exact O'|]. apply H; auto.
Qed.
Lemma q_allow b s (Q : unit -> unit -> sc -> Prop) : oks s -> (forall s', oks s' -> s_cur s' = s_cur s -> Q tt tt s') -> rws (allow b) (allow b) s Q.
Proof. intros O H. unfold allow. assert (O' : oks (set_allowed s b)) by okay. apply rws_modify; auto. Qed.
Lemma q_reset s (Q : unit -> unit -> sc -> Prop) : oks s -> (forall s', oks s' -> s_cur s' = s_cur s -> Q tt tt s') -> rws reset_block reset_block s Q.
Proof.
  intros O H. unfold reset_block. apply rws_bind, q_unroll; [exact O|]. intros s1 O1 E1 _ _. apply rws_bind, q_remove; [exact O1|]. intros ks O2. apply q_allow; [exact O2|]. intros s3 O3 E3. apply H; [exact O3|]. rewrite E3. exact E1.
Qed.
Definition any (_ _ : unit) (_ : sc) : Prop := True.
Notation t_of s := (c_text (s_cur s)).
Lemma q_chars n t s : oks s -> nb n (t_of s) -> rws (fetch_chars n t) (fetch_chars n t) s any.
Proof.
  intros O B. unfold fetch_chars. apply rws_bind, rws_get; [exact O|]. apply rws_bind, rws_lift; [exact O|]. intros O'.
  eapply rw_mono; [eapply s_skip_n; eassumption|]. intros a1 a2 t' m' [-> O1]. split; [exact O1|]. intros O2. apply rws_bind, rws_get; [exact O2|]. apply q_enqueue; [exact O2|reflexivity|]. intros; exact I.
Qed.
Lemma q_token (m : cm token) s : oks s -> (forall L t mk, ok L t mk -> t = t_of s -> rw m m t mk (same_token D L)) -> rws (t <~ lift m ;; enqueue t) (t <~ lift m ;; enqueue t) s any.
Proof.
  intros O H. apply rws_bind, rws_lift; [exact O|]. intros O'. eapply rw_mono; [apply (H _ _ _ O' eq_refl)|]. intros a1 a2 t' m' [-> O1]. split; [exact O1|]. intros O2. apply q_enqueue; [exact O2|reflexivity|]. intros; exact I.
Qed.
Lemma q_stream_start s : oks s -> rws fetch_stream_start fetch_stream_start s any.
Proof.
  intros O. unfold fetch_stream_start. apply rws_bind. apply rws_modify; [reflexivity| |].
  - apply (oks_same (set_keys s (key0 :: s_keys s))); [|reflexivity|reflexivity]. apply (oks_keys s (key0 :: s_keys s)); [exact O|]. constructor; [intros P; discriminate P|apply O].
  - assert (O' : oks (set_keys s (key0 :: s_keys s))) by (apply oks_keys; [exact O|]; constructor; [intros P; discriminate P|apply O]).
    apply rws_bind, rws_get; [okay|]. apply q_enqueue; [okay|reflexivity|]. intros; exact I.
Qed.
Lemma rw_force L t m (Q : unit -> unit -> list N -> mark -> Prop) : ok L t m -> t = [] -> (forall t' m', ok L t' m' -> Q tt tt t' m') -> rw force_line force_line t m Q.
Proof.
  intros O -> H. unfold LineCur.rw, force_line, cu. cbn. destruct (m_column m =? 0) eqn:E.
  - exists [], m. split; [reflexivity|]. split; [reflexivity|]. apply H; exact O.
  - destruct O as [H1 H2 H3 H4]. cbn in H1. exists [], (mkMark (m_index m) (m_line m + 1) 0). split; [reflexivity|].
    assert (E1 : D (m_line m + 1) = D (m_line m)) by (apply H1; lia).
    split; [unfold cu, LineCur.nmark; cbn; rewrite E1; reflexivity|]. apply H. constructor; cbn; auto; try lia.
    intros l' Hl. rewrite E1. apply H1. lia.
Qed.
Lemma q_stream_end s : oks s -> t_of s = [] -> rws fetch_stream_end fetch_stream_end s any.
Proof.
  intros O E. unfold fetch_stream_end. apply rws_bind, rws_lift; [exact O|]. intros O'. eapply rw_force; [exact O'|exact E|]. intros t' m' O1. split; [exact O1|]. intros O2.
  apply rws_bind, q_reset; [exact O2|]. intros s3 O3 _. apply rws_bind, rws_get; [exact O3|]. apply q_enqueue; [exact O3|reflexivity|]. intros; exact I.
Qed.
Lemma q_block_start p t s (Q : unit -> unit -> sc -> Prop) : oks s -> (forall s', oks s' -> s_cur s' = s_cur s -> Q tt tt s') -> rws (block_start p t) (block_start p t) s Q.
Proof.
  intros O H. unfold block_start. apply rws_bind, rws_get; [exact O|]. change (in_flow (ns s)) with (in_flow s). change (s_allowed (ns s)) with (s_allowed s).
  destruct (in_flow s); [apply rws_ret; auto|]. destruct (negb (s_allowed s)); [apply rws_error; reflexivity|]. apply q_roll; [exact O|reflexivity|exact H].
Qed.
Lemma q_value s : oks s -> nb 1 (t_of s) -> rws fetch_value fetch_value s any.
Proof.
  intros O B. unfold fetch_value. apply rws_bind, rws_get; [exact O|]. change (s_keys (ns s)) with (map nkey (s_keys s)).
  apply rws_bind. pose proof (o_keys s O) as K. destruct (s_keys s) as [|k ks] eqn:E; [exact I|]. cbn [map]. inversion K; subst.
  change (k_possible (nkey k)) with (k_possible k). change (k_number (nkey k)) with (k_number k). change (k_required (nkey k)) with (k_required k). change (in_flow (ns s)) with (in_flow s).
  change (k_mark (nkey k)) with (nmark (k_mark k)). change (m_column (nmark (k_mark k))) with (m_column (k_mark k)).
  destruct (k_possible k).
  - apply rws_bind, q_insert; [exact O|reflexivity|]. intros q O1. apply rws_bind, q_roll; [exact O1|reflexivity|]. intros s2 O2 E2. apply rws_bind.
    assert (O3 : oks (set_keys s2 (mkKey false (k_required k) (k_number k) (k_mark k) :: ks))).
    { apply oks_keys; [exact O2|]. unfold smark. rewrite E2. cbn. constructor; [intros P; discriminate P|assumption]. }
    apply rws_modify; [reflexivity|exact O3|]. apply q_allow; [exact O3|]. intros s4 O4 E4. apply q_chars; [exact O4|]. rewrite E4. cbn. rewrite E2. exact B.
  - apply rws_bind, q_block_start; [exact O|]. intros s1 O1 E1. apply q_allow; [exact O1|]. intros s2 O2 E2. apply q_chars; [exact O2|]. rewrite E2, E1. exact B.
Qed.

(* the token after the blanks *)
Lemma q_branch b s : oks s -> headed b (t_of s) -> rws (fetch_branch b) (fetch_branch b) s any.
Proof.
  intros O B. destruct b; cbn [fetch_branch headed] in *.
  - apply q_stream_end; [exact O|]. destruct (t_of s) as [|x r] eqn:E; [reflexivity|]. cbn in B. exfalso. destruct O as [_ [_ _ _ Z] _]. apply Z. rewrite E, B. left. reflexivity.
  - unfold fetch_directive. apply rws_bind, q_reset; [exact O|]. intros s1 O1 E1. apply q_token; [exact O1|]. intros L t m OL ->. apply s_directive; [exact OL|]. rewrite E1. exact B.
  - unfold fetch_document_indicator. apply rws_bind, q_reset; [exact O|]. intros s1 O1 E1. apply q_chars; [exact O1|rewrite E1; exact B].
  - unfold fetch_document_indicator. apply rws_bind, q_reset; [exact O|]. intros s1 O1 E1. apply q_chars; [exact O1|rewrite E1; exact B].
  - unfold fetch_flow_collection_start. apply rws_bind, q_save; [exact O|intros ks OO|]; (apply rws_bind, q_increase; [assumption|]; intros s1 O1 E1; apply rws_bind, q_allow; [exact O1|]; intros s2 O2 E2; apply q_chars; [exact O2|rewrite E2, E1; exact B]).
  - unfold fetch_flow_collection_start. apply rws_bind, q_save; [exact O|intros ks OO|]; (apply rws_bind, q_increase; [assumption|]; intros s1 O1 E1; apply rws_bind, q_allow; [exact O1|]; intros s2 O2 E2; apply q_chars; [exact O2|rewrite E2, E1; exact B]).
  - unfold fetch_flow_collection_end. apply rws_bind, q_remove; [exact O|intros ks OO]. apply rws_bind, q_decrease; [assumption|]; intros s1 O1 E1; apply rws_bind, q_allow; [exact O1|]; intros s2 O2 E2; apply q_chars; [exact O2|rewrite E2, E1; exact B].
  - unfold fetch_flow_collection_end. apply rws_bind, q_remove; [exact O|intros ks OO]. apply rws_bind, q_decrease; [assumption|]; intros s1 O1 E1; apply rws_bind, q_allow; [exact O1|]; intros s2 O2 E2; apply q_chars; [exact O2|rewrite E2, E1; exact B].
  - unfold fetch_flow_entry. apply rws_bind, q_remove; [exact O|intros ks OO]. apply rws_bind, q_allow; [assumption|]; intros s1 O1 E1. apply q_chars; [exact O1|rewrite E1; exact B].
  - unfold fetch_block_entry. apply rws_bind, q_block_start; [exact O|]. intros s1 O1 E1. apply rws_bind, q_remove; [exact O1|intros ks O2]. apply rws_bind, q_allow; [assumption|]; intros s3 O3 E3. apply q_chars; [exact O3|rewrite E3; cbn; rewrite E1; exact B].
  - unfold fetch_key. apply rws_bind, q_block_start; [exact O|]. intros s1 O1 E1. apply rws_bind, q_remove; [exact O1|intros ks O2]. apply rws_bind, rws_get; [exact O2|]. apply rws_bind, q_allow; [assumption|]; intros s3 O3 E3. apply q_chars; [exact O3|rewrite E3; cbn; rewrite E1; exact B].
  - apply q_value; assumption.
  - unfold fetch_anchor. apply rws_bind, q_save; [exact O|intros ks OO|]; (apply rws_bind, q_allow; [assumption|]; intros s1 O1 E1; apply q_token; [exact O1|]; intros L t m OL ->; apply s_anchor; [exact OL|rewrite E1; exact B]).
  - unfold fetch_anchor. apply rws_bind, q_save; [exact O|intros ks OO|]; (apply rws_bind, q_allow; [assumption|]; intros s1 O1 E1; apply q_token; [exact O1|]; intros L t m OL ->; apply s_anchor; [exact OL|rewrite E1; exact B]).
  - unfold fetch_tag. apply rws_bind, q_save; [exact O|intros ks OO|]; (apply rws_bind, q_allow; [assumption|]; intros s1 O1 E1; apply rws_bind, rws_get; [exact O1|]; apply q_token; [exact O1|]; intros L t m OL ->; apply s_tag; [exact OL|rewrite E1; exact B]).
  - unfold fetch_block_scalar. apply rws_bind, q_remove; [exact O|intros ks OO]. apply rws_bind, q_allow; [assumption|]; intros s1 O1 E1; apply rws_bind, rws_get; [exact O1|]; apply q_token; [exact O1|]; intros L t m OL ->; apply s_block_scalar; [exact OL|rewrite E1; exact B].
  - unfold fetch_block_scalar. apply rws_bind, q_remove; [exact O|intros ks OO]. apply rws_bind, q_allow; [assumption|]; intros s1 O1 E1; apply rws_bind, rws_get; [exact O1|]; apply q_token; [exact O1|]; intros L t m OL ->; apply s_block_scalar; [exact OL|rewrite E1; exact B].
  - unfold fetch_flow_scalar. apply rws_bind, q_save; [exact O|intros ks OO|]; (apply rws_bind, q_allow; [assumption|]; intros s1 O1 E1; apply q_token; [exact O1|]; intros L t m OL ->; apply s_flow_scalar; [exact OL|rewrite E1; exact B]).
  - unfold fetch_flow_scalar. apply rws_bind, q_save; [exact O|intros ks OO|]; (apply rws_bind, q_allow; [assumption|]; intros s1 O1 E1; apply q_token; [exact O1|]; intros L t m OL ->; apply s_flow_scalar; [exact OL|rewrite E1; exact B]).
  - unfold fetch_plain_scalar. apply rws_bind, q_save; [exact O|intros ks OO|]; (apply rws_bind, q_allow; [assumption|]; intros s1 O1 E1; apply rws_bind, rws_get; [exact O1|]; apply rws_bind, rws_lift; [exact O1|]; intros OL;
      eapply rw_mono; [apply s_plain; exact OL|]; intros [tk fl] a2 t' m' [-> O3]; split; [exact O3|]; intros O4; apply rws_bind; cbn [fst snd]; destruct fl;
      [apply q_allow; [exact O4|]; intros s5 O5 _; apply q_enqueue; [exact O5|reflexivity|]; intros; exact I
      |apply rws_ret; [exact O4|]; apply q_enqueue; [exact O4|reflexivity|]; intros; exact I]).
  - reflexivity.
Qed.
Lemma q_next s : oks s -> rws fetch_next_token fetch_next_token s any.
Proof.
  intros O. unfold fetch_next_token. apply rws_bind, rws_lift; [exact O|]. intros OL. apply rw_cache. split; [exact OL|]. intros O1. apply rws_bind, rws_get; [exact O1|].
  set (s1 := set_cur s _) in *. change (s_started (ns s1)) with (s_started s1). change (in_flow (ns s1)) with (in_flow s1). change (s_allowed (ns s1)) with (s_allowed s1).
  destruct (negb (s_started s1)); [apply q_stream_start; exact O1|].
  apply rws_bind, rws_lift; [exact O1|]. intros OL1. eapply rw_mono; [apply s_to_next; exact OL1|]. intros a1 a2 t2 m2 [-> OL2]. split; [exact OL2|]. intros O2.
  apply rws_bind, q_allow; [exact O2|]. intros s3 O3 E3. apply rws_bind, q_stale; [exact O3|]. intros ks O4. apply rws_bind, rws_get; [exact O4|].
  apply rws_bind. change (m_column (smark (ns (set_keys s3 ks)))) with (m_column (smark (set_keys s3 ks))). apply q_unroll; [exact O4|]. intros s5 O5 E5 _ F5.
  apply rws_bind, rws_lift; [exact O5|]. intros OL5. apply rw_cache. split; [exact OL5|]. intros O6.
  change (in_flow (ns (set_keys s3 ks))) with (in_flow (set_keys s3 ks)).
  apply rws_bind, rws_lift; [exact O6|]. intros OL6. eapply rw_mono; [apply s_choose|]. intros b b2 t7 m7 [(-> & -> & ->) Hd]. split; [exact OL6|]. intros O7.
  apply q_branch; [exact O7|exact Hd].
Qed.
Lemma head_same s : head_may_be_key (ns s) = head_may_be_key s.
Proof. unfold head_may_be_key. change (s_keys (ns s)) with (map nkey (s_keys s)). induction (s_keys s) as [|k ks IH]; [reflexivity|]. cbn [map existsb]. rewrite IH. reflexivity. Qed.
Lemma rws_fuel {A} (m1 m2 : sm A) s (Q : A -> A -> sc -> Prop) : (m1 s = SFuel \/ m2 (ns s) = SFuel) -> rws m1 m2 s Q.
Proof. intros [E|E]; unfold rws; rewrite E; [exact I|]. destruct (m1 s); exact I. Qed.
Lemma fuel_bind {A B} (m : sm A) (k : A -> sm B) s : m s = SFuel -> sbind m k s = SFuel.
Proof. intros E. unfold sbind. rewrite E. reflexivity. Qed.
Lemma q_more n1 : forall n2 s, oks s -> rws (fetch_more_n n1) (fetch_more_n n2) s any.
Proof.
  induction n1 as [|n1 IH]; intros n2 s O; [exact I|]. destruct n2 as [|n2]; [apply rws_fuel; right; reflexivity|].
  unfold rws. cbn [fetch_more_n]. change (s_tokens (ns s)) with (map ntoken (s_tokens s)).
  change (rws (need <~ match s_tokens s with [] => sret true | _ :: _ => stale_simple_keys ~;; s0 <~ get ;; sret (head_may_be_key s0) end ;;
     (if need then fetch_next_token ~;; fetch_more_n n1 else modify (fun s0 => set_avail s0 true)))
    (need <~ match map ntoken (s_tokens s) with [] => sret true | _ :: _ => stale_simple_keys ~;; s0 <~ get ;; sret (head_may_be_key s0) end ;;
     (if need then fetch_next_token ~;; fetch_more_n n2 else modify (fun s0 => set_avail s0 true))) s any).
  assert (K : forall (need : bool) s, oks s -> rws (if need then fetch_next_token ~;; fetch_more_n n1 else modify (fun s0 => set_avail s0 true)) (if need then fetch_next_token ~;; fetch_more_n n2 else modify (fun s0 => set_avail s0 true)) s any).
  { clear s O. intros [|] s O; [|apply rws_modify; [reflexivity|okay|exact I]]. apply rws_bind. eapply rws_mono; [apply q_next; exact O|]. intros [] [] s' O' _. apply IH. exact O'. }
  apply rws_bind. destruct (s_tokens s) as [|t q] eqn:Et; cbn [map].
  - apply rws_ret; [exact O|]. exact (K true s O).
  - apply rws_bind, q_stale; [exact O|]. intros ks O1. apply rws_bind, rws_get; [exact O1|]. rewrite head_same. apply rws_ret; [exact O1|]. exact (K _ _ O1).
Qed.
Lemma scan_same s : oks s ->
  match scan s, scan (ns s) with
  | ScanToken t1 s1, ScanToken t2 s2 => t2 = ntoken t1 /\ s2 = ns s1 /\ oks s1
  | ScanNothing s1, ScanNothing s2 => s2 = ns s1 /\ oks s1
  | ScanFail s1, ScanFail s2 => s2 = ns s1
  | ScanBad, _ | ScanFuel, _ | _, ScanBad | _, ScanFuel => True
  | _, _ => False
  end.
Proof.
  intros O. unfold scan. change (s_ended (ns s)) with (s_ended s). change (s_avail (ns s)) with (s_avail s).
  replace (match s_error (ns s) with Some _ => true | None => false end) with (match s_error s with Some _ => true | None => false end) by (cbn; destruct (s_error s); reflexivity).
  destruct (_ || _); [auto|].
  assert (K : rws (fun s0 => if s_avail s then SOk tt s0 else fetch_more_tokens s0) (fun s0 => if s_avail s then SOk tt s0 else fetch_more_tokens s0) s any).
  { destruct (s_avail s); [split; [reflexivity|split; [exact O|exact I]]|]. unfold fetch_more_tokens. exact (q_more (length (t_of s) + 3) (length (t_of (ns s)) + 3) s O). }
  unfold rws in K. cbv beta in K. destruct (if s_avail s then SOk tt s else fetch_more_tokens s) as [[] s1|e1| |], (if s_avail s then SOk tt (ns s) else fetch_more_tokens (ns s)) as [[] s2|e2| |]; try contradiction; try exact I.
  - destruct K as (-> & O1 & _). change (s_tokens (ns s1)) with (map ntoken (s_tokens s1)). destruct (s_tokens s1) as [|t q]; [exact I|]. cbn [map].
    split; [reflexivity|]. split; [reflexivity|okay].
  - destruct (s_tokens s1); exact I.
  - destruct (s_tokens s1); exact I.
  - subst e2. reflexivity.
Qed.
Definition nout (o : outcome) : outcome := match o with Failed e => Failed (nerr e) | _ => o end.
Lemma calls_more s0 s t s' : calls s0 s -> scan s = ScanToken t s' -> calls s0 s'.
Proof. intros H E. induction H; [econstructor; [exact E|constructor]|econstructor 2; eauto|econstructor 3; eauto|econstructor 4; eauto]. Qed.
Lemma ns_error s : s_error (ns s) = option_map nerr (s_error s). Proof. reflexivity. Qed.
Lemma full_error s : s_error (fulls s) = s_error s. Proof. reflexivity. Qed.
Lemma all_same e nest T plan T' plan' n : forall s1 s2, calls (init_scanner e nest T false plan) s1 -> calls (init_scanner e nest T' false plan') s2 ->
  wfc (s_cur s1) -> wfc (s_cur s2) -> oks (fulls s1) -> fulls s2 = ns (fulls s1) ->
  scan_all n s2 = (map ntoken (fst (scan_all n s1)), nout (snd (scan_all n s1))).
Proof.
  induction n as [|n IH]; intros s1 s2 H1 H2 W1 W2 O E; [reflexivity|]. cbn [scan_all].
  pose proof (scan_safe _ _ _ _ _ _ H1) as A1. pose proof (scan_returns _ _ _ _ _ _ H1) as A2. pose proof (scan_full s1 W1) as A3.
  pose proof (scan_safe _ _ _ _ _ _ H2) as B1. pose proof (scan_returns _ _ _ _ _ _ H2) as B2. pose proof (scan_full s2 W2) as B3.
  pose proof (scan_same (fulls s1) O) as K. rewrite <- E in K.
  destruct (scan s1) as [t1 s1'|s1'|s1'| |] eqn:E1; try contradiction; destruct A3 as [A3 W1']; rewrite A3 in K;
  destruct (scan s2) as [t2 s2'|s2'|s2'| |] eqn:E2; try contradiction; destruct B3 as [B3 W2']; rewrite B3 in K; try contradiction.
  - destruct K as (-> & Es & O'). specialize (IH s1' s2' (calls_more _ _ _ _ H1 E1) (calls_more _ _ _ _ H2 E2) W1' W2' O' Es). rewrite IH.
    destruct (scan_all n s1') as [l o]. reflexivity.
  - destruct K as [Es _]. rewrite <- (full_error s2'), Es, ns_error, full_error. destruct (s_error s1'); reflexivity.
  - rewrite <- (full_error s2'), K, ns_error, full_error. destruct (s_error s1'); reflexivity.
Qed.
End S.

(* The number of CR LF among the first [l] line breaks *)
Fixpoint extra (t : list N) (l : nat) {struct l} : N :=
  match l with
  | O => 0
  | S l' =>
      (fix go (t : list N) : N :=
        match t with
        | [] => 0
        | x :: r =>
            if x =? 0xD then match r with y :: r' => if y =? 0xA then 1 + extra r' l' else extra r l' | [] => 0 end
            else if is_break x then extra r l' else go r
        end) t
  end.
Lemma extra_nil l : extra [] l = 0. Proof. destruct l; reflexivity. Qed.
Lemma extra_0 t : extra t 0 = 0. Proof. destruct t; reflexivity. Qed.
Lemma extra_crlf r l : extra (0xD :: 0xA :: r) (S l) = 1 + extra r l. Proof. reflexivity. Qed.
Lemma extra_break x r l : is_break x = true -> x <> 0xD \/ hd 0 r <> 0xA -> extra (x :: r) (S l) = extra r l.
Proof.
  intros B H. cbn [extra]. destruct (N.eqb_spec x 0xD) as [->|]; [|rewrite B; reflexivity].
  destruct r as [|y r]; [rewrite extra_nil; reflexivity|]. cbn in H. destruct (N.eqb_spec y 0xA); [destruct H; congruence|reflexivity].
Qed.
Lemma extra_solid x r l : is_break x = false -> extra (x :: r) l = extra r l.
Proof. intros B. destruct l as [|l]; [reflexivity|]. cbn [extra]. rewrite B. destruct (N.eqb_spec x 0xD) as [->|]; [discriminate|reflexivity]. Qed.
Lemma extra_follows D : forall t l, (forall k, D (l + N.of_nat k) = D l + extra t k) -> follows D l t.
Proof.
  apply (with_lf_ind (fun t => forall l, (forall k, D (l + N.of_nat k) = D l + extra t k) -> follows D l t)).
  - intros l H. cbn. intros l' Hl. specialize (H (N.to_nat (l' - l))). rewrite extra_nil in H. replace (l + N.of_nat (N.to_nat (l' - l))) with l' in H by lia. lia.
  - intros r IH l H. rewrite follows_crlf. pose proof (H 1%nat) as H1. rewrite extra_crlf, extra_0 in H1. change (N.of_nat 1) with 1 in H1. split; [lia|]. apply IH. intros k.
    specialize (H (S k)). rewrite extra_crlf in H. replace (l + N.of_nat (S k)) with (l + 1 + N.of_nat k) in H by lia. lia.
  - intros x r C IH l H. destruct (is_break x) eqn:B.
    + rewrite follows_break by auto. pose proof (H 1%nat) as H1. rewrite extra_break, extra_0 in H1 by auto. change (N.of_nat 1) with 1 in H1. split; [lia|]. apply IH. intros k.
      specialize (H (S k)). rewrite extra_break in H by auto. replace (l + N.of_nat (S k)) with (l + 1 + N.of_nat k) in H by lia. lia.
    + rewrite follows_solid by exact B. apply IH. intros k. rewrite (H k), extra_solid by exact B. reflexivity.
Qed.

Lemma with_lf_nul t : ~ In 0 t -> ~ In 0 (with_lf t).
Proof.
  revert t. apply (with_lf_ind (fun t => ~ In 0 t -> ~ In 0 (with_lf t))).
  - intros _ [].
  - intros r IH H. rewrite with_lf_crlf. intros [K|K]; [discriminate|]. revert K. apply IH. intros K. apply H. right. right. exact K.
  - intros x r C IH H. rewrite with_lf_other by exact C. intros [K|K]; [|revert K; apply IH; intros K; apply H; right; exact K].
    apply H. left. revert K. unfold nch. destruct (_ || _); [discriminate|auto].
Qed.
Theorem lf_scan e nest T plan plan' n : ~ In 0 T -> exists D,
  scan_all n (init_scanner e nest (with_lf T) false plan') =
  (map (ntoken D) (fst (scan_all n (init_scanner e nest T false plan))), nout D (snd (scan_all n (init_scanner e nest T false plan)))).
Proof.
  intros Z. set (D := fun l => extra T (N.to_nat l)). exists D. assert (D0 : D 0 = 0) by (unfold D; change (N.to_nat 0) with 0%nat; reflexivity). apply (all_same D e nest T plan (with_lf T) plan').
  - constructor.
  - constructor.
  - split; [reflexivity|cbn; lia].
  - split; [reflexivity|cbn; lia].
  - constructor; [reflexivity| |constructor]. constructor; cbn; [|change (D 0 <= 0); rewrite D0; lia|lia|exact Z].
    apply extra_follows. intros k. rewrite D0. unfold D. replace (N.to_nat (0 + N.of_nat k)) with k by lia. lia.
  - unfold fulls, ns, full, init_scanner. cbn. unfold D. cbn. reflexivity.
Qed.
Lemma placed_ntoken D t : placed (ntoken D t) = placed t. Proof. reflexivity. Qed.
Lemma placed_nerr D e : placed_error (nerr D e) = placed_error e.
Proof. destruct e as [p [c|] m]; reflexivity. Qed.
Theorem same_scan e nest T T' plan plan' n : ~ In 0 T -> ~ In 0 T' -> same_but_breaks T T' ->
  let r := scan_all n (init_scanner e nest T false plan) in
  let r' := scan_all n (init_scanner e nest T' false plan') in
  map placed (fst r) = map placed (fst r') /\
  match snd r, snd r' with
  | Ended, Ended => True
  | Failed er, Failed er' => placed_error er = placed_error er'
  | Unfinished, Unfinished => True
  | _, _ => False
  end.
Proof.
  intros Z Z' S r r'. destruct (lf_scan e nest T plan [] n Z) as [D E]. destruct (lf_scan e nest T' plan' [] n Z') as [D' E'].
  fold r in E. fold r' in E'. unfold same_but_breaks in S. rewrite S in E. rewrite E in E'. clear E S. injection E' as E1 E2.
  assert (M : forall D l, map placed (map (ntoken D) l) = map placed l) by (intros D0 l; rewrite map_map; apply map_ext; intros t; apply placed_ntoken).
  split; [rewrite <- (M D), E1, M; reflexivity|].
  assert (U : snd r <> Undefined).
  { unfold r. clear. generalize (calls_nil (init_scanner e nest T false plan)). generalize (init_scanner e nest T false plan) at 2 3. induction n as [|n IH]; intros s H; [discriminate|]. cbn [scan_all].
    pose proof (scan_safe _ _ _ _ _ _ H) as A1. destruct (scan s) as [t s1|s1|s1| |] eqn:E; try contradiction; try discriminate.
    - specialize (IH s1 (calls_more _ _ _ _ H E)). destruct (scan_all n s1). exact IH.
    - cbn. destruct (s_error s1); discriminate.
    - cbn. assert (X : s_error s1 <> None).
      { revert E. unfold scan. destruct (_ || _); [discriminate|]. destruct (if s_avail s then SOk tt s else fetch_more_tokens s) as [a s2|er| |]; try discriminate; [destruct (s_tokens s2); discriminate|]. intros E. injection E as <-. discriminate. }
      destruct (s_error s1); [discriminate|congruence]. }
  revert E2 U. destruct (snd r) as [|er| |], (snd r') as [|er'| |]; unfold nout; try discriminate; auto. intros E2 _.
  apply (f_equal (fun o => match o with Failed x => placed_error x | _ => placed_error er end)) in E2. cbv beta iota in E2. rewrite !placed_nerr in E2. exact E2.
Qed.

Lemma with_lf_in x t : In x (with_lf t) -> x <> 0xD /\ x <> 0x85 /\ (In x t \/ x = 0xA).
Proof.
  revert t. apply (with_lf_ind (fun t => In x (with_lf t) -> x <> 0xD /\ x <> 0x85 /\ (In x t \/ x = 0xA))).
  - intros [].
  - intros r IH. rewrite with_lf_crlf. intros [<-|H]; [repeat split; auto; discriminate|]. destruct (IH H) as (A & B & C). cbn [In]. tauto.
  - intros y r C IH. rewrite with_lf_other by exact C. intros [<-|H]; [|destruct (IH H) as (A & B & E); cbn [In]; tauto].
    unfold nch. destruct (N.eqb_spec y 0xD); [repeat split; auto; discriminate|]. destruct (N.eqb_spec y 0x85); cbn [orb In]; [repeat split; auto; discriminate|tauto].
Qed.
Theorem scalar_values e nest T plan n t v st : ~ In 0 T ->
  In t (fst (scan_all n (init_scanner e nest T false plan))) -> t_tok t = TScalar v st -> st <> DoubleQuoted \/ ~ In 0x5C T ->
  exists w, v = utf8 w /\ forall x, In x w -> x <> 0xD /\ x <> 0x85 /\ (In x T \/ x = 0x20 \/ x = 0xA).
Proof.
  intros Z H E K. destruct (lf_scan e nest T plan [] n Z) as [D ED].
  set (P := fun x => In x (with_lf T) \/ x = 0x20 \/ x = 0xA).
  assert (F : Forall (fine P) (fst (scan_all n (init_scanner e nest (with_lf T) false [])))).
  { apply all_fine; [right; left; reflexivity|right; right; reflexivity|]. split; [|constructor]. apply Forall_forall. intros x Hx. left. exact Hx. }
  rewrite ED in F. cbn [fst] in F. rewrite Forall_forall in F. specialize (F (ntoken D t) (in_map _ _ _ H)). unfold fine, ntoken in F. cbn [t_tok] in F. rewrite E in F.
  destruct F as (w & -> & W).
  - destruct K as [K|K]; [left; exact K|right]. intros [Q|[Q|Q]]; try discriminate. destruct (with_lf_in _ _ Q) as (_ & _ & [Q'|Q']); [contradiction|discriminate].
  - exists w. split; [reflexivity|]. intros x Hx. rewrite Forall_forall in W. destruct (W x Hx) as [Q|[Q|Q]].
    + destruct (with_lf_in _ _ Q) as (A & B & [C|C]); auto.
    + subst x. repeat split; auto; discriminate.
    + subst x. repeat split; auto; discriminate.
Qed.
