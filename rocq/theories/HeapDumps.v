(* yaml_emitter_open, _close and _dump as a whole. *)
From Coq Require Import Permutation.
From Verif Require Import Base ReaderModel Types DocModel DumperModel HeapModel HeapSpec HeapLemmas HeapEvents HeapDocs HeapLoader HeapEmitModel HeapEmitSpec HeapEmit HeapDump.

Definition D (m : em) (sink : list bool) : dumper := mkDumper (m_opened m) (m_closed m) [] 0 (m_log m) sink.
Definition went (m : em) (ok : bool) (rest : list bool) : dres := if ok then DOk (D m rest) else DFail (D m rest).
Definition called (h : heap) (m : em) (out : list bool -> dres) (r : em * bool) (g : list nat) (h' : heap) : Prop :=
  g = em_blocks (fst r) /\ wf_em (fst r) /\ (exists used, forall rest, out (used ++ rest) = went (fst r) (snd r) rest) /\ blame h m (fst r) (snd r).
Lemma wf_flags m a b : wf_em m -> wf_em (m_with_flags m a b). Proof. exact (fun w => w). Qed.
Lemma open_does m h : good h -> wf_em m -> holds h (em_blocks m) -> m_opened m = false ->
  does (h_open m) h (em_blocks m) (fun r g h' => called h m (fun sink => dump_open (D m sink)) r g h' /\ (snd r = true -> m_opened (fst r) = true)).
Proof.
  intros G W H O. pose proof (ext_refl h) as X. unfold does, h_open. eapply ends_ok; [rewrite O; reflexivity|].
  destruct (emit_does m (HStreamStart AnyEnc) h G W I) as ([m1 ok] & g & h1 & E1 & G1 & X1 & C1 & -> & W1 & O1 & O2 & O3 & B1 & B2); [cbn [ev_blocks]; clear - H; cn|].
  rewrite (bind_ok _ _ _ _ _ E1). cbn [fst snd ev_blocks event_at] in *.
  eapply ends_ret; [exact G1|exact X1|rewrite app_nil_r in C1; exact C1|]. destruct ok; cbn [fst snd]; (split; [|try reflexivity; try discriminate]);
    (split; [reflexivity|]; split; [exact W1|]; split; [|split; assumption]).
  - exists [true]. intros rest. unfold dump_open. cbn [D dm_opened]. rewrite O. cbn. unfold D. cbn. rewrite O2, O3. reflexivity.
  - exists [false]. intros rest. unfold dump_open. cbn [D dm_opened]. rewrite O. cbn. unfold D. rewrite O1, O2, O3, app_nil_r, O. reflexivity.
Qed.
Lemma close_does m h : good h -> wf_em m -> holds h (em_blocks m) -> m_opened m = true ->
  does (h_close m) h (em_blocks m) (fun r g h' => called h m (fun sink => dump_close (D m sink)) r g h' /\ m_opened (fst r) = true).
Proof.
  intros G W H O. pose proof (ext_refl h) as X. unfold does, h_close. eapply ends_ok; [rewrite O; reflexivity|].
  destruct (m_closed m) eqn:Ec.
  { eapply ends_ret; [exact G|exact X|apply still|]. cbn [fst snd]. split; [|exact O]. split; [reflexivity|]. split; [exact W|]. split; [|apply blame_refl].
    exists []. intros rest. unfold dump_close. cbn [D dm_opened dm_closed]. rewrite O, Ec. unfold went, D. cbn [fst snd]. rewrite O, Ec. reflexivity. }
  destruct (emit_does m HStreamEnd h G W I) as ([m1 ok] & g & h1 & E1 & G1 & X1 & C1 & -> & W1 & O1 & O2 & O3 & B1 & B2); [cbn [ev_blocks]; clear - H; cn|].
  rewrite (bind_ok _ _ _ _ _ E1). cbn [fst snd ev_blocks event_at] in *.
  eapply ends_ret; [exact G1|exact X1|rewrite app_nil_r in C1; exact C1|]. destruct ok; cbn [fst snd]; (split; [|cbn; congruence]);
    (split; [reflexivity|]; split; [exact W1|]; split; [|split; assumption]).
  - exists [true]. intros rest. unfold dump_close. cbn [D dm_opened dm_closed]. rewrite O, Ec. cbn. unfold D. cbn. rewrite O1, O, O3. reflexivity.
  - exists [false]. intros rest. unfold dump_close. cbn [D dm_opened dm_closed]. rewrite O, Ec. cbn. unfold D. rewrite O1, O2, O3, app_nil_r, O, Ec. reflexivity.
Qed.

(* ---- cleaning up ---- *)
Lemma node_rest_delete n x h : good h -> holds h (rest_blocks (n, x)) -> does (k_node_delete n (ai_serialized x)) h (rest_blocks (n, x)) (fun _ g _ => g = []).
Proof.
  intros G H. pose proof (ext_refl h) as X. unfold does, k_node_delete, rest_blocks, h_del in *. cbn [fst snd] in *.
  assert (L : forall p h0 h1 taken, good h1 -> ext h0 h1 -> holds h1 (ptr_blocks p) -> changes h0 taken (ptr_blocks p) h1 -> ends (h_free p h1) h0 taken (fun _ g _ => g = [])).
  { intros p h0 h1 taken G1 X1 H1 C1. eapply ends_does; [exact X1|apply h_free_does; assumption| |]; cbn beta; [tauto|]. intros _ g h3 C ->. clear - C C1. cn. }
  assert (R : forall p h0 h1 taken, good h1 -> ext h0 h1 -> changes h0 taken [] h1 -> p = tt -> ends (hret p h1) h0 taken (fun _ g _ => g = [])).
  { intros p h0 h1 taken G1 X1 C1 _. eapply ends_ret; [exact G1|exact X1|exact C1|reflexivity]. }
  destruct (ai_serialized x).
  - eapply ends_ok; [reflexivity|]. destruct (hn_data n); [apply R; auto; clear - H; cn|apply L; auto; clear - H; cn|apply L; auto; clear - H; cn].
  - destruct (hn_data n) as [v st|items st|pairs st].
    + eapply ends_bind with (taken1 := ptr_blocks (hn_tag n) ++ ptr_blocks v) (Q1 := fun _ g _ => g = []); [exact X| |].
      * unfold does. freeing. apply L; auto; clear - H Cf; cn.
      * cbn beta. intros _ g h2 G2 X2 X3 C ->. apply R; auto. clear - C. cn.
    + eapply ends_bind with (taken1 := ptr_blocks (hn_tag n)) (Q1 := fun _ g _ => g = []); [exact X| |].
      * unfold does. freeing. apply R; auto.
      * cbn beta. intros _ g h2 G2 X2 X3 C ->. apply L; auto; clear - H C; cn.
    + eapply ends_bind with (taken1 := ptr_blocks (hn_tag n)) (Q1 := fun _ g _ => g = []); [exact X| |].
      * unfold does. freeing. apply R; auto.
      * cbn beta. intros _ g h2 G2 X2 X3 C ->. apply L; auto; clear - H C; cn.
Qed.
Lemma nodes_delete_does nodes_at anchors l : nodes_at <> None -> anchors <> None -> forall h, good h -> holds h (flat_map rest_blocks l ++ ptr_blocks nodes_at ++ ptr_blocks anchors) ->
  does (k_nodes_delete nodes_at anchors l) h (flat_map rest_blocks l) (fun _ g _ => g = []).
Proof.
  intros N A. induction l as [|[n x] l IH]; intros h G H; pose proof (ext_refl h) as X; unfold does; cbn [k_nodes_delete flat_map] in *.
  - eapply ends_ret; [exact G|exact X| |reflexivity]. clear. cn.
  - eapply ends_ok; [apply h_touch_ok; [exact N|clear - H; cn]|]. eapply ends_ok; [apply h_touch_ok; [exact A|clear - H; cn]|].
    eapply ends_bind; [exact X|apply node_rest_delete; [exact G|clear - H; cn]|]. cbn beta. intros _ g h2 G2 X2 X3 C ->.
    eapply ends_does; [exact X2|apply IH; [exact G2|clear - H C; cn]| |]; cbn beta; [tauto|]. intros _ g h3 C3 ->. clear - C C3. cn.
Qed.
Lemma cleanup_does d anch k h : a_at (hd_nodes d) <> None -> k_doc k = d -> k_anchors k = Some anch -> good h ->
  holds h (left_blocks (a_els (hd_nodes d)) (k_infos k) ++ ptr_blocks (a_at (hd_nodes d)) ++ [anch]) ->
  does (h_cleanup k) h (left_blocks (a_els (hd_nodes d)) (k_infos k) ++ ptr_blocks (a_at (hd_nodes d)) ++ [anch]) (fun _ g _ => g = []).
Proof.
  intros N K1 K2 G H. pose proof (ext_refl h) as X. unfold does, h_cleanup, left_blocks in *. rewrite K1, K2. cbn [is_null].
  eapply ends_bind; [exact X|apply nodes_delete_does; [exact N|discriminate|exact G|exact H]|]. cbn beta. intros _ g h2 G2 X2 X3 C ->. unfold h_del.
  freeing.
  eapply ends_does; [eassumption|apply h_free_does; [assumption|clear - H C Cf; cn]| |]; cbn beta; [tauto|]. intros _ g h3 C3 ->. clear - C Cf C3. cn.
Qed.
Lemma left_fresh nodes b : (cnt (left_blocks nodes (map (fun _ => mkInfo 0 0 false) nodes)) b = cnt (flat_map node_blocks nodes) b)%nat.
Proof.
  unfold left_blocks. induction nodes as [|n l IH]; [reflexivity|]. cbn [map combine flat_map]. rewrite !cnt_app, IH. f_equal.
  unfold rest_blocks, node_blocks. cbn [fst snd ai_serialized]. destruct (hn_data n); rewrite !cnt_app, ?cnt_nil; lia.
Qed.
Lemma left_same nodes : forall a b, map ai_serialized a = map ai_serialized b -> left_blocks nodes a = left_blocks nodes b.
Proof.
  unfold left_blocks. induction nodes as [|n l IH]; intros [|x a] [|y b] E; try discriminate; try reflexivity. cbn [map] in E. injection E as E1 E2.
  cbn [combine flat_map]. rewrite (IH a b E2). unfold rest_blocks. cbn [fst snd]. rewrite E1. reflexivity.
Qed.

(* ---- yaml_emitter_dump ---- *)
Definition fin (h : heap) (m : em) (out : list bool -> dres) (r : em * kres) (g : list nat) (h' : heap) : Prop :=
  match snd r with
  | KFuel => exists used, forall rest, out (used ++ rest) = DOutOfFuel
  | KDone ok => g = em_blocks (fst r) /\ wf_em (fst r) /\ exists used, forall rest, out (used ++ rest) = went (fst r) ok rest
  end /\
  (generous h -> snd r = KDone false -> m_error (fst r) <> None) /\ (generous h -> m_error (fst r) = Some MMemory -> m_error m = Some MMemory).
Definition runs (hs : heap) (taken : list nat) (m0 : em) (r : hres (em * kres)) (out : list bool -> dres) : Prop :=
  (r = HUndef /\ exists used, forall rest, out (used ++ rest) = DUndefined) \/ ends r hs taken (fin hs m0 out).
Lemma finish_reset (nodes : list hnode) infos op cl last log rest : nodes <> [] -> length infos = length nodes ->
  cleanup (mkDumper op cl infos last log rest) = mkDumper op cl [] 0 log rest.
Proof. intros N L. destruct infos as [|x infos]; [|reflexivity]. destruct nodes; [congruence|discriminate]. Qed.

Section Dump.
  Variable hb : heap.
  Variable d : hdoc.
  Hypothesis Gb : good hb.
  Hypothesis Sd : sound_doc d.
  Hypothesis Hb : holds hb (doc_blocks d).
  Hypothesis Some_node : a_els (hd_nodes d) <> [].
  Notation nodes := (a_els (hd_nodes d)).
  Notation nodes_at := (a_at (hd_nodes d)).
  Notation values := (map (hnode_at hb) (a_els (hd_nodes d))).
  Notation infos0 := (map (fun _ : hnode => mkInfo 0 0 false) (a_els (hd_nodes d))).
  Definition last_value (s : dumper) : dres := emit s (EDocEnd (hd_end_implicit d)).
  Definition after_value (fuel : nat) (s : dumper) : dres := dbind (anchor_node fuel values s 1) (fun s => dbind (dump_node fuel values s 1) last_value).
  Definition after_heap (fuel : nat) (m : em) (s : dm) : hm (em * kres) :=
    '(s, enough) <~ h_anchor_node fuel s 1 ;;
    if negb enough then hret (m, KFuel) else
    '(s, o) <~ h_dump_node fuel (m, s) 1 ;;
    match o with
    | KFuel => hret (fst s, KFuel)
    | KDone false => h_cleanup (snd s) ;;; hret (fst s, KDone false)
    | KDone true =>
        '(m, ok) <~ h_emit (fst s) (HDocEnd (hd_end_implicit d)) ;;
        h_cleanup (snd s) ;;;
        hret (m, KDone ok)
    end.
  Lemma anchor_all anch h m fuel i k : good h -> holds h (ptr_blocks nodes_at) -> holds h [anch] ->
    (forall i n, at_index nodes i = Some n -> holds h (match hn_data n with HNScalar _ _ => [] | HNSequence a _ => ptr_blocks (a_at a) | HNMapping a _ => ptr_blocks (a_at a) end)) ->
    k_doc k = d -> k_anchors k = Some anch -> length (k_infos k) = length nodes ->
    (h_anchor_node fuel k i h = HUndef /\ forall sink, anchor_node fuel values (V m k sink) i = DUndefined) \/
    (exists k', h_anchor_node fuel k i h = HOk (k', false) h /\ forall sink, anchor_node fuel values (V m k sink) i = DOutOfFuel) \/
    (exists k', h_anchor_node fuel k i h = HOk (k', true) h /\ (forall sink, anchor_node fuel values (V m k sink) i = DOk (V m k' sink)) /\
       k_doc k' = d /\ k_anchors k' = Some anch /\ length (k_infos k') = length nodes /\ map ai_serialized (k_infos k') = map ai_serialized (k_infos k)).
  Proof.
    intros G H1 H2 H3 K1 K2 K3. pose proof (fun sink => anchor_sim hb d anch Sd h m sink fuel G H1 H2 H3 i k K1 K2 K3) as A.
    pose proof (A []) as A0. destruct (anchor_node fuel values (V m k []) i) eqn:E; try contradiction.
    - right; right. destruct A0 as (k' & E1 & -> & B1 & B2 & B3 & B4). exists k'. split; [exact E1|]. split; [|repeat split; assumption].
      intros sink. specialize (A sink). rewrite E1 in A. destruct (anchor_node fuel values (V m k sink) i); try contradiction; try discriminate.
      + destruct A as (k2 & E2 & -> & _). injection E2 as <-. reflexivity.
      + destruct A as (k2 & E2). discriminate.
    - left. split; [exact A0|]. intros sink. specialize (A sink). rewrite A0 in A. destruct (anchor_node fuel values (V m k sink) i); try contradiction; try reflexivity.
      + destruct A as (k2 & E2 & _). discriminate.
      + destruct A as (k2 & E2). discriminate.
    - right; left. destruct A0 as (k' & E1). exists k'. split; [exact E1|]. intros sink. specialize (A sink). rewrite E1 in A. destruct (anchor_node fuel values (V m k sink) i); try contradiction; try reflexivity; try discriminate.
      destruct A as (k2 & E2 & _). discriminate.
  Qed.
  Lemma after_sim anch fuel m k h : good h -> ext hb h -> wf_em m -> k = mkDm d (Some anch) infos0 0 ->
    holds h (em_blocks m ++ left_blocks nodes (k_infos k) ++ ptr_blocks nodes_at ++ [anch]) ->
    runs h (em_blocks m ++ left_blocks nodes (k_infos k) ++ ptr_blocks nodes_at ++ [anch]) m (after_heap fuel m k h) (fun sink => finish (after_value fuel (V m k sink))).
  Proof.
    intros G Xb W -> H. pose proof (ext_refl h) as X. unfold after_heap, after_value.
    set (k := mkDm d (Some anch) infos0 0) in *. assert (L0 : length (k_infos k) = length nodes) by (unfold k; cbn [k_infos]; apply map_length).
    assert (Hi : forall i n, at_index nodes i = Some n -> holds h (match hn_data n with HNScalar _ _ => [] | HNSequence a _ => ptr_blocks (a_at a) | HNMapping a _ => ptr_blocks (a_at a) end)).
    { intros i n En. destruct (at_index (k_infos k) i) as [x|] eqn:Ex.
      - pose proof (held_node _ _ _ _ _ L0 En Ex) as Q. unfold rest_blocks in Q. cbn [fst snd] in Q. clear - Q H. destruct (hn_data n); cn.
      - exfalso. destruct i as [|i]; [discriminate|]. cbn [at_index] in *. apply nth_error_None in Ex. assert (i < length nodes)%nat by (apply nth_error_Some; congruence). lia. }
    destruct (anchor_all anch h m fuel 1 k G) as [(E & A)|[(k' & E & A)|(k' & E & A & K1 & K2 & K3 & K4)]]; [clear - H; cn|clear - H; cn|exact Hi|reflexivity|reflexivity|exact L0| | |].
    { left. unfold hbind. rewrite E. split; [reflexivity|]. exists []. intros rest. rewrite A. reflexivity. }
    { right. rewrite (bind_ok _ _ _ _ _ E). cbn [negb]. eapply ends_ret; [exact G|exact X|apply still|]. split; [exists []; intros rest; rewrite A; reflexivity|]. split; [discriminate|auto]. }
    rewrite (bind_ok _ _ _ _ _ E). cbn [negb].
    rewrite (left_same nodes _ _ (eq_sym K4)) in *.
    assert (P : pre hb d anch h (B_ d m k') m h m k' []).
    { split; [exact G|]. split; [exact X|]. split; [exact Xb|]. split; [split; [exact K1|split; [exact K2|split; [exact K3|exact W]]]|].
      split; [rewrite app_nil_r; apply still|]. split; [unfold B_; clear - H; cn|auto]. }
    destruct (node_sim hb d anch Gb Sd Hb fuel 1%nat _ _ _ _ _ _ P) as [(U & used & R)|([[m1 k1] o] & g & h1 & E1 & G1 & X1 & C1 & -> & (I1 & I2 & I3 & I4) & (used & R3) & R4 & R5)].
    { left. unfold hbind. rewrite U. split; [reflexivity|]. exists used. intros rest. rewrite A. cbn [dbind]. rewrite R. reflexivity. }
    rewrite (bind_ok _ _ _ _ _ E1). cbn [fst snd].
    assert (H1 : holds h1 (em_blocks m1 ++ left_blocks nodes (k_infos k1) ++ ptr_blocks nodes_at ++ [anch])) by (unfold B_ in C1; clear - C1 H; cn).
    destruct o as [[|]|]; right.
    - destruct (emit_does m1 (HDocEnd (hd_end_implicit d)) h1 G1 I4 I) as ([m2 ok] & g & h2 & E2 & G2 & X2 & C2 & -> & W2 & O1 & O2 & O3 & B1 & B2); [cbn [ev_blocks]; clear - H1; cn|].
      rewrite (bind_ok _ _ _ _ _ E2). cbn [fst snd ev_blocks event_at] in *.
      destruct (cleanup_does d anch k1 h2 (proj1 Sd) I1 I2 G2) as (u & g & h3 & E3 & G3 & X3 & C3 & ->); [clear - H1 C2; cn|]. rewrite (bind_ok _ _ _ _ _ E3).
      eapply ends_ret with (g := em_blocks m2); [exact G3|eapply ext_trans; [exact X1|eapply ext_trans; eassumption]|unfold B_ in C1; clear - C1 C2 C3; cn|].
      split; cbn [fst snd].
      2:{ split; [intros _ F; apply B1; injection F as ->; reflexivity|]. intros gn F. apply R5; [exact gn|]. apply B2; [apply X1, gn|exact F]. }
      split; [reflexivity|]. split; [exact W2|]. exists (used ++ [ok]). intros rest. rewrite A. cbn [dbind]. rewrite <- app_assoc. specialize (R3 ([ok] ++ rest)). unfold dout in R3. rewrite R3. cbn [dbind].
      unfold last_value. rewrite emit_value. unfold went, D. rewrite O1, O2, O3. destruct ok; cbn [finish]; unfold V; rewrite (finish_reset nodes) by assumption; rewrite ?app_nil_r; reflexivity.
    - destruct (cleanup_does d anch k1 h1 (proj1 Sd) I1 I2 G1) as (u & g & h3 & E3 & G3 & X3 & C3 & ->); [clear - H1; cn|]. rewrite (bind_ok _ _ _ _ _ E3).
      eapply ends_ret with (g := em_blocks m1); [exact G3|eapply ext_trans; [exact X1|eassumption]|unfold B_ in C1; clear - C1 C3; cn|].
      split; cbn [fst snd]; [|split; assumption]. split; [reflexivity|]. split; [exact I4|]. exists used. intros rest. rewrite A. cbn [dbind].
      destruct (R3 rest) as (i1 & i2 & i3 & i4). rewrite i4. cbn [dbind finish]. rewrite (finish_reset nodes) by assumption. reflexivity.
    - eapply ends_ret with (g := em_blocks m1 ++ left_blocks nodes (k_infos k1) ++ ptr_blocks nodes_at ++ [anch]); [exact G1|exact X1|unfold B_ in C1; clear - C1; cn|].
      split; cbn [fst snd]; [|split; [discriminate|exact R5]]. exists used. intros rest. rewrite A. cbn [dbind]. rewrite (R3 rest). reflexivity.
  Qed.
End Dump.
Lemma opening_does m h : good h -> wf_em m -> holds h (em_blocks m) ->
  does (if m_opened m then hret (m, true) else h_open m) h (em_blocks m)
    (fun r g h' => called h m (fun sink => if m_opened m then DOk (D m sink) else dump_open (D m sink)) r g h' /\ (snd r = true -> m_opened (fst r) = true)).
Proof.
  intros G W H. destruct (m_opened m) eqn:O; [|apply open_does; assumption].
  eapply ends_ret; [exact G|apply ext_refl|apply still|]. split; [|intros _; exact O]. split; [reflexivity|]. split; [exact W|]. split; [exists []; reflexivity|apply blame_refl].
Qed.
Lemma match_some {A B} (l : list A) (x y : B) : l <> [] -> match l with [] => x | _ :: _ => y end = y.
Proof. destruct l; [congruence|reflexivity]. Qed.
Lemma dump_sim fuel m d h : good h -> wf_em m -> sound_doc d ->
  holds h (em_blocks m ++ doc_blocks d) ->
  runs h (em_blocks m ++ doc_blocks d) m (h_dump fuel m d h) (fun sink => dump fuel (D m sink) (document_at h d)).
Proof.
  intros G W Sd H. pose proof (ext_refl h) as X. unfold h_dump.
  destruct (opening_does m h G W) as ([m1 ok] & g & h1 & E1 & G1 & X1 & C1 & (-> & W1 & (used1 & R1) & B1 & B2) & O1); [clear - H; cn|]. rewrite (bind_ok _ _ _ _ _ E1). cbn [fst snd] in *.
  assert (H1 : holds h1 (em_blocks m1 ++ doc_blocks d)) by (clear - H C1; cn).
  destruct Sd as (S1 & S2 & S3).
  assert (Quit : forall m2 ok2 h2 used, good h2 -> ext h h2 -> wf_em m2 -> changes h (em_blocks m ++ doc_blocks d) (em_blocks m2 ++ doc_blocks d) h2 ->
    (forall rest, dump fuel (D m (used ++ rest)) (document_at h d) = went m2 ok2 rest) -> (generous h -> ok2 = false -> m_error m2 <> None) ->
    (generous h -> m_error m2 = Some MMemory -> m_error m = Some MMemory) ->
    runs h (em_blocks m ++ doc_blocks d) m ((h_cleanup (mkDm d None [] 0) ;;; hret (m2, KDone ok2)) h2) (fun sink => dump fuel (D m sink) (document_at h d))).
  { intros m2 ok2 h2 used G2 X2 W2 C2 R2 F1 F2. right. unfold h_cleanup. cbn [k_anchors is_null k_doc].
    eapply ends_bind; [exact X2|apply document_delete_does; [exact G2|intros _; exact S1|exact (proj1 S3)|clear - H C2; cn]|]. cbn beta. intros _ g h3 G3 X3 X4 C3 ->.
    eapply ends_ret with (g := em_blocks m2); [exact G3|exact X4|clear - C2 C3; cn|]. split; cbn [fst snd]; [|split; [intros gn F; apply F1; [exact gn|congruence]|exact F2]].
    split; [reflexivity|]. split; [exact W2|]. exists used. exact R2. }
  destruct ok; cbn [negb].
  2:{ apply (Quit _ _ _ used1); auto. { clear - C1. cn. } intros rest. unfold dump. cbn [D dm_opened]. rewrite R1. reflexivity. }
  specialize (O1 eq_refl). destruct (a_els (hd_nodes d)) as [|n0 ns] eqn:En.
  { destruct (close_does m1 h1 G1 W1) as ([m2 ok] & g & h2 & E2 & G2 & X2 & C2 & (-> & W2 & (used2 & R2) & B3 & B4) & O2); [clear - H1; cn|exact O1|]. rewrite (bind_ok _ _ _ _ _ E2). cbn [fst snd] in *.
    apply (Quit _ _ _ (used1 ++ used2)); auto.
    - eapply ext_trans; eassumption.
    - clear - C1 C2. cn.
    - intros rest. unfold dump. cbn [D dm_opened]. rewrite <- app_assoc, R1. cbn [went dbind]. unfold document_at. cbn [d_nodes]. rewrite En. cbn [map]. rewrite R2. destruct ok; reflexivity.
    - intros gn F. apply B2; [exact gn|]. apply B4; [apply X1, gn|exact F]. }
  rewrite <- En in *. assert (Ne : a_els (hd_nodes d) <> []) by congruence.
  set (inner := fun s : dumper => let s0 := set_anchors s (map (fun _ => mkInfo 0 0 false) (d_nodes (document_at h d))) in
        dbind (emit s0 (EDocStart (d_version (document_at h d)) (d_tags (document_at h d)) (d_start_implicit (document_at h d)))) (after_value h d fuel)).
  assert (Du : forall rest, dump fuel (D m (used1 ++ rest)) (document_at h d) = finish (inner (D m1 rest))).
  { intros rest. unfold dump. cbn [D dm_opened]. rewrite R1. cbn [went dbind]. rewrite match_some; [reflexivity|]. cbn [document_at d_nodes]. rewrite En. discriminate. }
  destruct (h_malloc_does [] h1 G1) as (a & g & h2 & E2 & G2 & X2 & C2 & -> & _ & Y2). rewrite (bind_ok _ _ _ _ _ E2).
  destruct a as [b|]; cbn [is_null].
  2:{ apply (Quit m1 false h2 (used1 ++ [false])); auto.
      - eapply ext_trans; eassumption.
      - clear - C1 C2. cn.
      - intros rest. rewrite <- app_assoc, Du. unfold inner. cbn [document_at d_nodes]. cbn. rewrite En. reflexivity.
      - intros gn _. exfalso. apply Y2; [apply X1, gn|reflexivity]. }
  cbn [ptr_blocks] in C2. assert (H2 : holds h2 (em_blocks m1 ++ doc_blocks d ++ [b])) by (clear - H1 C2; cn).
  assert (Xh2 : ext h h2) by (eapply ext_trans; eassumption).
  assert (Hd : holds h (doc_blocks d)) by (clear - H; cn).
  assert (Dv : document_at h2 d = document_at h d) by (apply document_ext; assumption).
  destruct (emit_does m1 (HDocStart (hd_version d) (hd_tags d) (hd_start_implicit d)) h2 G2 W1 S3) as ([m3 ok] & g & h3 & E3 & G3 & X3 & C3 & -> & W3 & O3 & O4 & O5 & B5 & B6).
  { cbn [ev_blocks]. unfold doc_blocks in H2. clear - H2. cn. }
  rewrite (bind_ok _ _ _ _ _ E3). cbn [fst snd event_at] in *. set (k := mkDm d (Some b) _ 0).
  assert (Lf : forall c, (cnt (left_blocks (a_els (hd_nodes d)) (k_infos k)) c = cnt (flat_map node_blocks (a_els (hd_nodes d))) c)%nat) by (intros c; apply left_fresh).
  assert (H3 : holds h3 (em_blocks m3 ++ left_blocks (a_els (hd_nodes d)) (k_infos k) ++ ptr_blocks (a_at (hd_nodes d)) ++ [b])).
  { cbn [ev_blocks] in C3. unfold doc_blocks in H2. clear - H2 C3 Lf. cn. }
  assert (Xh3 : ext h h3) by (eapply ext_trans; eassumption).
  assert (C4 : changes h (em_blocks m ++ doc_blocks d) (em_blocks m3 ++ left_blocks (a_els (hd_nodes d)) (k_infos k) ++ ptr_blocks (a_at (hd_nodes d)) ++ [b]) h3).
  { cbn [ev_blocks] in C3. unfold doc_blocks in *. clear - C1 C2 C3 Lf. cn. }
  assert (Bm : generous h -> m_error m3 = Some MMemory -> m_error m = Some MMemory) by (intros gn F; apply B2; [exact gn|]; apply B6; [apply Xh2, gn|exact F]).
  replace (EDocStart (version_at h2 (hd_version d)) (map (pair_at h2) (a_els (hd_tags d))) (hd_start_implicit d))
    with (EDocStart (d_version (document_at h d)) (d_tags (document_at h d)) (d_start_implicit (document_at h d))) in O5 by (rewrite <- Dv; reflexivity).
  destruct ok; cbn [negb].
  2:{ right. destruct (cleanup_does d b k h3 S1 eq_refl eq_refl G3) as (u & g & h4 & E4 & G4 & X4 & C5 & ->); [clear - H3; cn|]. rewrite (bind_ok _ _ _ _ _ E4).
      eapply ends_ret with (g := em_blocks m3); [exact G4|eapply ext_trans; eassumption|clear - C4 C5; cn|]. split; cbn [fst snd]; [|split; [intros _ _; apply B5; reflexivity|exact Bm]].
      split; [reflexivity|]. split; [exact W3|]. exists (used1 ++ [false]). intros rest. rewrite app_nil_r in O5. rewrite <- app_assoc, Du. unfold inner. cbn. rewrite En. unfold D. rewrite O3, O4, O5. reflexivity. }
  assert (Kv : forall rest, inner (D m1 ([true] ++ rest)) = after_value h d fuel (V m3 k rest)).
  { intros rest. unfold inner. cbn [document_at d_nodes D set_anchors dm_sink app emit dbind dm_opened dm_closed dm_anchors dm_last dm_log]. unfold V, k. cbn [k_infos k_last]. rewrite O3, O4, O5, map_map. reflexivity. }
  destruct (after_sim h d G (conj S1 (conj S2 S3)) Hd Ne b fuel m3 k h3 G3 Xh3 W3 eq_refl H3) as [(U & used & R)|([m4 o] & g & h4 & E4 & G4 & X4 & C5 & R & F1 & F2)].
  { left. split; [exact U|]. exists (used1 ++ [true] ++ used). intros rest. rewrite <- !app_assoc, Du, Kv. apply R. }
  right. exists (m4, o), g, h4. split; [exact E4|]. split; [exact G4|]. split; [eapply ext_trans; eassumption|]. split; [clear - C4 C5; cn|].
  split; cbn [fst snd] in *; [|split; [intros gn F; apply F1; [apply Xh3, gn|exact F]|intros gn F; apply Bm; [exact gn|]; apply F2; [apply Xh3, gn|exact F]]].
  destruct o as [ok|].
  - destruct R as (-> & W4 & used & R). split; [reflexivity|]. split; [exact W4|]. exists (used1 ++ [true] ++ used). intros rest.
    rewrite <- !app_assoc, Du, Kv. apply R.
  - destruct R as (used & R). exists (used1 ++ [true] ++ used). intros rest.
    rewrite <- !app_assoc, Du, Kv. apply R.
Qed.
