(* Dumping: the simulation of DumperModel.v, and what is given and taken. *)
From Coq Require Import Permutation.
From Verif Require Import Base ReaderModel Types DocModel DumperModel HeapModel HeapSpec HeapLemmas HeapEvents HeapDocs HeapLoader HeapEmitModel HeapEmitSpec HeapEmit.

Lemma at_index_map {A B} (f : A -> B) l i : at_index (map f l) i = option_map f (at_index l i).
Proof. destruct i as [|i]; [reflexivity|]. apply nth_error_map. Qed.

(* what remains of a node: its strings may have been given to an event *)
Definition rest_blocks (p : hnode * anchor_info) : list nat :=
  (if ai_serialized (snd p) then []
   else ptr_blocks (hn_tag (fst p)) ++ match hn_data (fst p) with HNScalar v _ => ptr_blocks v | _ => [] end) ++
  match hn_data (fst p) with
  | HNScalar _ _ => []
  | HNSequence items _ => ptr_blocks (a_at items)
  | HNMapping pairs _ => ptr_blocks (a_at pairs)
  end.
Definition left_blocks (nodes : list hnode) (infos : list anchor_info) : list nat := flat_map rest_blocks (combine nodes infos).

Lemma held_node nodes i n infos x : length infos = length nodes -> at_index nodes i = Some n -> at_index infos i = Some x ->
  forall b, (cnt (rest_blocks (n, x)) b <= cnt (left_blocks nodes infos) b)%nat.
Proof.
  destruct i as [|i]; [discriminate|]. cbn [at_index]. unfold left_blocks. revert infos i. induction nodes as [|n0 l IH]; intros [|x0 infos] [|i] L N X b; try discriminate.
  - cbn in N, X. injection N as ->. injection X as ->. cbn [combine flat_map]. rewrite cnt_app. lia.
  - cbn [combine flat_map]. rewrite cnt_app. injection L as L. specialize (IH infos i L N X b). lia.
Qed.
Definition strings_blocks (n : hnode) : list nat := ptr_blocks (hn_tag n) ++ match hn_data n with HNScalar v _ => ptr_blocks v | _ => [] end.
Lemma take_node nodes i n infos x refs anchor : length infos = length nodes -> at_index nodes i = Some n -> at_index infos i = Some x -> ai_serialized x = false ->
  forall b, (cnt (left_blocks nodes infos) b = cnt (left_blocks nodes (set_nth (i - 1) (mkInfo refs anchor true) infos)) b + cnt (strings_blocks n) b)%nat.
Proof.
  destruct i as [|i]; [discriminate|]. cbn [at_index]. replace (S i - 1)%nat with i by lia. unfold left_blocks. revert infos i. induction nodes as [|n0 l IH]; intros [|x0 infos] [|i] L N X E b; try discriminate.
  - cbn in N, X. injection N as ->. injection X as ->. cbn [combine flat_map set_nth]. unfold rest_blocks, strings_blocks. cbn [fst snd ai_serialized]. rewrite E, !cnt_app, ?cnt_nil. lia.
  - cbn [combine flat_map set_nth]. rewrite !cnt_app. injection L as L. specialize (IH infos i L N X E b). lia.
Qed.
Lemma set_nth_len {A} k (x : A) l : length (set_nth k x l) = length l.
Proof. revert k. induction l as [|y l IH]; intros [|k]; cbn [set_nth length]; auto. Qed.


Section Dumping.
  Variable hb : heap.                (* the heap when the call began *)
  Variable d : hdoc.
  Variable anch : nat.
  Hypothesis Gb : good hb.
  Hypothesis Sd : sound_doc d.
  Hypothesis Hb : holds hb (doc_blocks d).
  Notation nodes := (a_els (hd_nodes d)).
  Notation nodes_at := (a_at (hd_nodes d)).
  Notation values := (map (hnode_at hb) (a_els (hd_nodes d))).
  Notation fixed := (ptr_blocks nodes_at ++ [anch]).

  Definition V (m : em) (k : dm) (sink : list bool) : dumper := mkDumper (m_opened m) (m_closed m) (k_infos k) (k_last k) (m_log m) sink.
  Definition I_ (m : em) (k : dm) : Prop := k_doc k = d /\ k_anchors k = Some anch /\ length (k_infos k) = length nodes /\ wf_em m.
  Definition B_ (m : em) (k : dm) : list nat := em_blocks m ++ left_blocks nodes (k_infos k).
  Definition dout (o : kres) (m : em) (k : dm) (rest : list bool) (r : dres) : Prop :=
    match o with
    | KFuel => r = DOutOfFuel
    | KDone true => r = DOk (V m k rest)
    | KDone false => exists infos last, length infos = length nodes /\ r = DFail (mkDumper (m_opened m) (m_closed m) infos last (m_log m) rest)
    end.
  Definition post (hs : heap) (m0 : em) (out : list bool -> dres) (r : dump_state * kres) (g : list nat) (h' : heap) : Prop :=
    let '((m', k'), o) := r in
    g = B_ m' k' /\ I_ m' k' /\ (exists used, forall rest, dout o m' k' rest (out (used ++ rest))) /\
    (generous hs -> o = KDone false -> m_error m' <> None) /\ (generous hs -> m_error m' = Some MMemory -> m_error m0 = Some MMemory).
  Definition sim (hs : heap) (taken : list nat) (m0 : em) (r : hres (dump_state * kres)) (out : list bool -> dres) : Prop :=
    (r = HUndef /\ exists used, forall rest, out (used ++ rest) = DUndefined) \/ ends r hs taken (post hs m0 out).
  Definition pre (hs : heap) (taken : list nat) (m0 : em) (h : heap) (m : em) (k : dm) (extra : list nat) : Prop :=
    good h /\ ext hs h /\ ext hb h /\ I_ m k /\ changes hs taken (B_ m k ++ extra) h /\ holds h (B_ m k ++ extra ++ fixed) /\
    (generous hs -> m_error m = Some MMemory -> m_error m0 = Some MMemory).

  Lemma emit_value m k x (ok : bool) rest : emit (V m k ([ok] ++ rest)) x =
    if ok then DOk (mkDumper (m_opened m) (m_closed m) (k_infos k) (k_last k) (m_log m ++ [x]) rest) else DFail (V m k rest).
  Proof. destruct ok; reflexivity. Qed.

  Lemma emit_sim hs taken m0 h m k e x K (F : dumper -> dres) : pre hs taken m0 h m k (ev_blocks e) -> sound_event e -> event_at h e = Some x ->
    (forall m' h', K ((m', k), false) h' = HOk ((m', k), KDone false) h') ->
    (forall m' h', ext h h' -> pre hs taken m0 h' m' k [] -> sim hs taken m0 (K ((m', k), true) h') (fun sink => F (V m' k sink))) ->
    sim hs taken m0 (hbind (k_emit (m, k) e) K h) (fun sink => dbind (emit (V m k sink) x) F).
  Proof.
    intros (G & X & Xb & (I1 & I2 & I3 & I4) & C & H & Bl) Fe Ex Kf Kt. unfold k_emit. cbn [fst snd].
    destruct (emit_does m e h G I4 Fe) as ([m1 ok] & g & h1 & E1 & G1 & X1 & C1 & -> & W1 & O1 & O2 & O3 & B1 & B2). { unfold B_ in *. clear - H. cn. }
    cbn [fst snd] in *. assert (Ek : (('(m2, ok) <~ h_emit m e;; hret (m2, k, ok)) h) = HOk ((m1, k), ok) h1) by (unfold hbind; rewrite E1; reflexivity).
    rewrite (bind_ok _ _ _ _ _ Ek). rewrite Ex in O3.
    assert (Bm : generous hs -> m_error m1 = Some MMemory -> m_error m0 = Some MMemory) by (intros g F1; apply Bl, B2; [exact g|apply X, g|exact F1]).
    destruct ok.
    - assert (P1 : pre hs taken m0 h1 m1 k []).
      { split; [exact G1|]. split; [eapply ext_trans; eassumption|]. split; [eapply ext_trans; eassumption|]. split; [split; [|split; [|split]]; assumption|].
        split; [unfold B_ in *; clear - C C1; cn|]. split; [unfold B_ in *; clear - H C1; cn|exact Bm]. }
      assert (Vm : forall rest, emit (V m k ([true] ++ rest)) x = DOk (V m1 k rest)) by (intros rest; rewrite emit_value; unfold V; rewrite O1, O2, O3; reflexivity).
      destruct (Kt m1 h1 X1 P1) as [(U & used & R)|(r & g & h2 & E2 & G2 & X2 & C2 & R)].
      + left. split; [exact U|]. exists ([true] ++ used). intros rest. rewrite <- app_assoc, Vm. cbn [dbind]. apply R.
      + right. exists r, g, h2. split; [exact E2|]. split; [exact G2|]. split; [exact X2|]. split; [exact C2|].
        destruct r as [[m2 k2] o]. destruct R as (R1 & R2 & (used & R3) & R4 & R5). split; [exact R1|]. split; [exact R2|]. split; [|split; [exact R4|exact R5]].
        exists ([true] ++ used). intros rest. rewrite <- app_assoc, Vm. cbn [dbind]. apply R3.
    - rewrite Kf. right. eexists _, _, _. split; [reflexivity|]. split; [exact G1|]. split; [eapply ext_trans; eassumption|].
      split; [|split; [reflexivity|]; split; [split; [|split; [|split]]; assumption|]; split; [|split; [intros _ _; apply B1; reflexivity|exact Bm]]].
      + unfold B_ in *. clear - C C1. cn.
      + exists [false]. intros rest. rewrite emit_value. cbn [dbind dout]. unfold V. rewrite O1, O2, O3, app_nil_r. exists (k_infos k), (k_last k). split; [exact I3|reflexivity].
  Qed.
  Lemma ret_sim hs taken m0 h m k F : pre hs taken m0 h m k [] -> (forall sink, F sink = DOk (V m k sink)) -> sim hs taken m0 (hret ((m, k), KDone true) h) F.
  Proof.
    intros (G & X & Xb & I & C & H & Bl) Ef. right. eapply ends_ret with (g := B_ m k); [exact G|exact X|unfold B_ in *; clear - C; cn|].
    split; [reflexivity|]. split; [exact I|]. split; [exists []; intros rest; apply Ef|]. split; [discriminate|exact Bl].
  Qed.
  Lemma sim_ext hs taken m0 r F F' : (forall sink, F sink = F' sink) -> sim hs taken m0 r F' -> sim hs taken m0 r F.
  Proof.
    intros E [(U & used & R)|(x & g & h2 & E2 & G2 & X2 & C2 & R)]; [left; split; [exact U|]; exists used; intros; rewrite E; apply R|right].
    exists x, g, h2. split; [exact E2|]. split; [exact G2|]. split; [exact X2|]. split; [exact C2|].
    destruct x as [[m2 k2] o]. destruct R as (R1 & R2 & (used & R3) & R4). split; [exact R1|]. split; [exact R2|]. split; [|exact R4].
    exists used. intros rest. rewrite E. apply R3.
  Qed.
  Lemma last_sim hs taken m0 h m k e x : pre hs taken m0 h m k (ev_blocks e) -> sound_event e -> event_at h e = Some x ->
    sim hs taken m0 (('(s, ok) <~ k_emit (m, k) e ;; hret (s, KDone ok)) h) (fun sink => emit (V m k sink) x).
  Proof.
    intros P Fe Ex. eapply sim_ext; [|apply (emit_sim hs taken m0 h m k e x (fun p => let '(s, ok) := p in hret (s, KDone ok)) DOk P Fe Ex)].
    - intros sink. cbn beta. destruct (emit (V m k sink) x); reflexivity.
    - reflexivity.
    - intros m' h' X' P'. apply ret_sim; [exact P'|reflexivity].
  Qed.
  (* a call followed by another, when nothing else is held *)
  Lemma call_sim hs taken m0 h m k f F K F2 : pre hs taken m0 h m k [] ->
    (forall hs taken m0 h m k, pre hs taken m0 h m k [] -> sim hs taken m0 (f (m, k) h) (fun sink => F (V m k sink))) ->
    (forall s o h', o <> KDone true -> K (s, o) h' = HOk (s, o) h') ->
    (forall m' k' h', ext h h' -> pre hs taken m0 h' m' k' [] -> sim hs taken m0 (K ((m', k'), KDone true) h') (fun sink => F2 (V m' k' sink))) ->
    sim hs taken m0 (hbind (f (m, k)) K h) (fun sink => dbind (F (V m k sink)) F2).
  Proof.
    intros P Sf Kf Kt. destruct P as (G & X & Xb & I & C & H & Bl).
    assert (P0 : pre h (B_ m k) m h m k []).
    { split; [exact G|]. split; [apply ext_refl|]. split; [exact Xb|]. split; [exact I|]. split; [clear; cn|]. split; [exact H|auto]. }
    destruct (Sf _ _ _ _ _ _ P0) as [(U & used & R)|([[m1 k1] o] & g & h1 & E1 & G1 & X1 & C1 & R1 & R2 & (used & R3) & R4 & R5)].
    { left. unfold hbind. rewrite U. split; [reflexivity|]. exists used. intros rest. rewrite R. reflexivity. }
    rewrite (bind_ok _ _ _ _ _ E1). subst g. assert (C' : changes hs taken (B_ m1 k1 ++ []) h1) by (clear - C C1; cn).
    assert (Bm : generous hs -> m_error m1 = Some MMemory -> m_error m0 = Some MMemory) by (intros g F1; apply Bl; [exact g|]; apply R5; [apply X, g|exact F1]).
    destruct o as [[|]|].
    - assert (P1 : pre hs taken m0 h1 m1 k1 []).
      { split; [exact G1|]. split; [eapply ext_trans; eassumption|]. split; [eapply ext_trans; eassumption|]. split; [exact R2|]. split; [exact C'|]. split; [clear - H C1; cn|exact Bm]. }
      destruct (Kt m1 k1 h1 X1 P1) as [(U & used2 & R)|(r & g & h2 & E2 & G2 & X2 & C2 & R)].
      + left. split; [exact U|]. exists (used ++ used2). intros rest. rewrite <- app_assoc, (R3 (used2 ++ rest)). cbn [dbind]. apply R.
      + right. exists r, g, h2. split; [exact E2|]. split; [exact G2|]. split; [exact X2|]. split; [exact C2|].
        destruct r as [[m2 k2] o]. destruct R as (Q1 & Q2 & (used2 & Q3) & Q4 & Q5). split; [exact Q1|]. split; [exact Q2|]. split; [|split; [exact Q4|exact Q5]].
        exists (used ++ used2). intros rest. rewrite <- app_assoc, (R3 (used2 ++ rest)). cbn [dbind]. apply Q3.
    - rewrite Kf by discriminate. right. eexists _, _, _. split; [reflexivity|]. split; [exact G1|]. split; [eapply ext_trans; eassumption|]. split; [exact C'|].
      split; [rewrite app_nil_r; reflexivity|]. split; [exact R2|]. split; [exists used; intros rest; destruct (R3 rest) as (q1 & q2 & q3 & q4); rewrite q4; exists q1, q2; split; [exact q3|reflexivity]|]. split; [intros g _; apply R4; [apply X, g|reflexivity]|exact Bm].
    - rewrite Kf by discriminate. right. eexists _, _, _. split; [reflexivity|]. split; [exact G1|]. split; [eapply ext_trans; eassumption|]. split; [exact C'|].
      split; [rewrite app_nil_r; reflexivity|]. split; [exact R2|]. split; [exists used; intros rest; rewrite (R3 rest); reflexivity|]. split; [discriminate|exact Bm].
  Qed.
  Lemma loop_sim f F : (forall i hs taken m0 h m k, pre hs taken m0 h m k [] -> sim hs taken m0 (f (m, k) i h) (fun sink => F (V m k sink) i)) ->
    forall l hs taken m0 h m k, pre hs taken m0 h m k [] -> sim hs taken m0 (k_loop f l (m, k) h) (fun sink => each F l (V m k sink)).
  Proof.
    intros Sf. induction l as [|i l IH]; intros hs taken m0 h m k P; cbn [k_loop each].
    { apply ret_sim; [exact P|reflexivity]. }
    apply (call_sim hs taken m0 h m k (fun s => f s i) (fun s => F s i) (fun p => let '(s, o) := p in match o with KDone true => k_loop f l s | o => hret (s, o) end) (each F l) P).
    - intros. apply Sf. assumption.
    - intros s o h' N. destruct o as [[|]|]; [congruence|reflexivity|reflexivity].
    - intros m' k' h' X' P'. apply IH. exact P'.
  Qed.
  Lemma collection_sim f F l e1 e2 x1 x2 hs taken m0 h m k :
    (forall i hs taken m0 h m k, pre hs taken m0 h m k [] -> sim hs taken m0 (f (m, k) i h) (fun sink => F (V m k sink) i)) ->
    pre hs taken m0 h m k (ev_blocks e1) -> sound_event e1 -> event_at h e1 = Some x1 -> ev_blocks e2 = [] -> sound_event e2 -> (forall h, event_at h e2 = Some x2) ->
    sim hs taken m0 (k_collection f l (m, k) e1 e2 h)
      (fun sink => dbind (emit (V m k sink) x1) (fun s => dbind (each F l s) (fun s => emit s x2))).
  Proof.
    intros Sf P F1 E1 B2 F2 E2. unfold k_collection.
    apply (emit_sim hs taken m0 h m k e1 x1 (fun p => let '(s, ok) := p in if negb ok then hret (s, KDone false) else
       '(s, o) <~ k_loop f l s ;; match o with KDone true => '(s, ok) <~ k_emit s e2 ;; hret (s, KDone ok) | o => hret (s, o) end)
       (fun s => dbind (each F l s) (fun s => emit s x2)) P F1 E1); [reflexivity|].
    intros m' h' X' P'. cbn [negb].
    apply (call_sim hs taken m0 h' m' k (k_loop f l) (each F l)
       (fun p => let '(s, o) := p in match o with KDone true => '(s, ok) <~ k_emit s e2 ;; hret (s, KDone ok) | o => hret (s, o) end) (fun s => emit s x2) P').
    - intros. apply (loop_sim f F Sf). assumption.
    - intros s o h2 N. destruct o as [[|]|]; [congruence|reflexivity|reflexivity].
    - intros m2 k2 h2 X2 P2. apply last_sim; [rewrite B2; exact P2|exact F2|apply E2].
  Qed.


  Lemma held_base h m k extra : I_ m k -> holds h (B_ m k ++ extra ++ fixed) -> holds h (left_blocks nodes (k_infos k)) /\ holds h (ptr_blocks nodes_at) /\ holds h [anch].
  Proof. intros _ H. unfold B_ in H. split; [|split]; clear - H; cn. Qed.
  (* the memory that stays in place while a node is anchored *)
  Lemma anchor_sim h m sink fuel : good h -> holds h (ptr_blocks nodes_at) -> holds h [anch] -> (forall i n, at_index nodes i = Some n -> holds h (match hn_data n with HNScalar _ _ => [] | HNSequence a _ => ptr_blocks (a_at a) | HNMapping a _ => ptr_blocks (a_at a) end)) ->
    forall i k, k_doc k = d -> k_anchors k = Some anch -> length (k_infos k) = length nodes ->
    match anchor_node fuel values (V m k sink) i with
    | DOk s => exists k', h_anchor_node fuel k i h = HOk (k', true) h /\ s = V m k' sink /\ k_doc k' = d /\ k_anchors k' = Some anch /\ length (k_infos k') = length nodes /\
        (map ai_serialized (k_infos k') = map ai_serialized (k_infos k))
    | DOutOfFuel => exists k', h_anchor_node fuel k i h = HOk (k', false) h
    | DUndefined => h_anchor_node fuel k i h = HUndef
    | _ => False
    end.
  Proof.
    intros G Hn Ha Hi. induction fuel as [|f IH]; intros i k K1 K2 K3; cbn [anchor_node h_anchor_node]; [eexists; reflexivity|].
    assert (T1 : h_touch (a_at (hd_nodes (k_doc k))) h = HOk tt h) by (rewrite K1; apply h_touch_ok; [apply Sd|exact Hn]).
    assert (T2 : h_touch (k_anchors k) h = HOk tt h) by (rewrite K2; apply h_touch_ok; [congruence|exact Ha]).
    rewrite at_index_map. cbn [V dm_anchors]. unfold k_node. rewrite !(bind_ok _ _ _ _ _ T1), !(bind_ok _ _ _ _ _ T2), K1.
    destruct (at_index nodes i) as [n|] eqn:En; cbn [option_map]; [|reflexivity]. destruct (at_index (k_infos k) i) as [x|] eqn:Ex; [|reflexivity].
    cbn [ai_refs ai_anchor ai_serialized]. set (k1 := k_set k i _). change (set_info (V m k sink) i _) with (V m k1 sink).
    assert (L1 : length (k_infos k1) = length nodes) by (unfold k1; cbn [k_infos k_set]; rewrite set_nth_len; exact K3).
    assert (S1 : map ai_serialized (k_infos k1) = map ai_serialized (k_infos k)).
    { unfold k1. cbn [k_infos k_set]. rewrite set_nth_map. apply set_nth_same. destruct i as [|i]; [discriminate|]. cbn [at_index] in Ex. replace (S i - 1)%nat with i by lia.
      rewrite nth_error_map, Ex. reflexivity. }
    assert (Each : forall l k2, k_doc k2 = d -> k_anchors k2 = Some anch -> length (k_infos k2) = length nodes ->
      match each (anchor_node f values) l (V m k2 sink) with
      | DOk s => exists k', k_each (h_anchor_node f) l k2 h = HOk (k', true) h /\ s = V m k' sink /\ k_doc k' = d /\ k_anchors k' = Some anch /\ length (k_infos k') = length nodes /\
        (map ai_serialized (k_infos k') = map ai_serialized (k_infos k2))
      | DOutOfFuel => exists k', k_each (h_anchor_node f) l k2 h = HOk (k', false) h
      | DUndefined => k_each (h_anchor_node f) l k2 h = HUndef
      | _ => False
      end).
    { induction l as [|j l IHl]; intros k2 A1 A2 A3; cbn [each k_each]; [eexists; repeat split; assumption|].
      specialize (IH j k2 A1 A2 A3). destruct (anchor_node f values (V m k2 sink) j) as [s| | | |]; cbn [dbind]; try contradiction.
      - destruct IH as (k3 & E & -> & B1 & B2 & B3 & B4). rewrite (bind_ok _ _ _ _ _ E). cbn beta iota.
        specialize (IHl k3 B1 B2 B3). destruct (each (anchor_node f values) l (V m k3 sink)); try assumption.
        destruct IHl as (k4 & E4 & -> & C1 & C2 & C3 & C4). exists k4. rewrite C4, B4. repeat split; assumption.
      - unfold hbind. rewrite IH. reflexivity.
      - destruct IH as (k3 & E). rewrite (bind_ok _ _ _ _ _ E). eexists. reflexivity. }
    specialize (Hi i n En). assert (Sn : sound_node n).
    { destruct i as [|i]; [discriminate|]. cbn [at_index] in En. apply nth_error_In in En. destruct Sd as (_ & F & _). rewrite Forall_forall in F. exact (F _ En). }
    destruct Sn as [_ Sn]. cbn [hnode_at n_data].
    destruct ((S (ai_refs x) =? 1)%nat).
    - destruct (hn_data n) as [v st|items st|pairs st]; cbn beta iota.
      + exists k1. repeat split; try assumption; reflexivity.
      + rewrite (bind_ok _ _ _ _ _ (h_touch_ok _ h Sn Hi)). specialize (Each (a_els items) k1 K1 K2 L1). rewrite S1 in Each. exact Each.
      + rewrite (bind_ok _ _ _ _ _ (h_touch_ok _ h Sn Hi)). specialize (Each (flat_pairs (a_els pairs)) k1 K1 K2 L1). rewrite S1 in Each. exact Each.
    - destruct ((S (ai_refs x) =? 2)%nat); eexists; (split; [reflexivity|]); repeat split; try assumption.
      + cbn [k_set k_infos k_set_last]. rewrite set_nth_len. exact L1.
      + cbn [k_set k_infos k_set_last]. rewrite <- S1. rewrite set_nth_map. apply set_nth_same. unfold k1. cbn [k_set k_infos k_set_last].
        destruct i as [|i]; [discriminate|]. cbn [at_index] in Ex. replace (S i - 1)%nat with i by lia. rewrite nth_error_map.
        clear - Ex. revert i Ex. induction (k_infos k) as [|y l IHl]; intros [|i] Ex; try discriminate; cbn in *; [reflexivity|apply IHl; exact Ex].
  Qed.
  Lemma values_at h n i : good h -> ext hb h -> at_index nodes i = Some n -> hnode_at h n = hnode_at hb n.
  Proof.
    intros G X En. destruct i as [|i]; [discriminate|]. cbn [at_index] in En. apply node_ext; [exact Gb|exact X|].
    intros b. pose proof (nth_node_blocks _ _ _ En b) as Q. specialize (Hb b). unfold doc_blocks in Hb. rewrite !cnt_app in Hb. lia.
  Qed.
  Lemma none_sim hs taken m0 h m k o F : pre hs taken m0 h m k [] -> (exists used, forall rest, dout o m k rest (F (used ++ rest))) -> o <> KDone false \/ ~ generous hs ->
    sim hs taken m0 (hret ((m, k), o) h) F.
  Proof.
    intros (G & X & Xb & I & C & H & Bl) Ef N. right. eapply ends_ret with (g := B_ m k); [exact G|exact X|unfold B_ in *; clear - C; cn|].
    split; [reflexivity|]. split; [exact I|]. split; [exact Ef|]. split; [|exact Bl]. intros g E. destruct N as [N|N]; [congruence|contradiction].
  Qed.
  Definition body_value (f : nat) (n : node) (x : anchor_info) (i : nat) (anchor : option (list N)) (s : dumper) : dres :=
    if ai_serialized x then match anchor with Some a => emit s (EAlias a) | None => DUndefined end
    else
      let s := set_info s i (mkInfo (ai_refs x) (ai_anchor x) true) in
      let tag := n_tag n in
      match n_data n with
      | NScalar value style =>
          let implicit := str_eqb tag default_scalar_tag in
          emit s (EScalar anchor (Some tag) value implicit implicit style)
      | NSequence items style =>
          dbind (emit s (ESeqStart anchor (Some tag) (str_eqb tag default_sequence_tag) style)) (fun s =>
          dbind (each (dump_node f values) items s) (fun s => emit s ESeqEnd))
      | NMapping pairs style =>
          dbind (emit s (EMapStart anchor (Some tag) (str_eqb tag default_mapping_tag) style)) (fun s =>
          dbind (each (dump_node f values) (flat_pairs pairs) s) (fun s => emit s EMapEnd))
      end.
  Definition body_heap (f : nat) (n : hnode) (x : anchor_info) (i : nat) (anchor : ptr) (s : dump_state) : hm (dump_state * kres) :=
    if ai_serialized x then
      (if is_null anchor then hundef else '(s, ok) <~ k_emit s (HAlias anchor) ;; hret (s, KDone ok))
    else
      let s := (fst s, k_set (snd s) i (mkInfo (ai_refs x) (ai_anchor x) true)) in
      let tag := hn_tag n in
      match hn_data n with
      | HNScalar value style =>
          implicit <~ k_tag_is tag default_scalar_tag ;;
          '(s, ok) <~ k_emit s (HScalar anchor tag value implicit implicit style) ;; hret (s, KDone ok)
      | HNSequence items style =>
          implicit <~ k_tag_is tag default_sequence_tag ;;
          h_touch (a_at items) ;;;
          k_collection (h_dump_node f) (a_els items) s (HSeqStart anchor tag implicit style) HSeqEnd
      | HNMapping pairs style =>
          implicit <~ k_tag_is tag default_mapping_tag ;;
          h_touch (a_at pairs) ;;;
          k_collection (h_dump_node f) (flat_pairs (a_els pairs)) s (HMapStart anchor tag implicit style) HMapEnd
      end.
  Lemma opt_str h p : p <> None -> opt_at h p = Some (str_at h p). Proof. destruct p; [reflexivity|congruence]. Qed.
  Lemma body_sim f n x i anchor hs taken m0 h m k :
    (forall i hs taken m0 h m k, pre hs taken m0 h m k [] -> sim hs taken m0 (h_dump_node f (m, k) i h) (fun sink => dump_node f values (V m k sink) i)) ->
    pre hs taken m0 h m k (ptr_blocks anchor) -> at_index nodes i = Some n -> at_index (k_infos k) i = Some x ->
    sim hs taken m0 (body_heap f n x i anchor (m, k) h) (fun sink => body_value f (hnode_at hb n) x i (opt_at h anchor) (V m k sink)).
  Proof.
    intros IH P En Ex. unfold body_heap, body_value. destruct (ai_serialized x) eqn:Es.
    { destruct anchor as [b|]; cbn [is_null opt_at].
      - apply last_sim; [exact P|discriminate|reflexivity].
      - left. split; [reflexivity|]. exists []. reflexivity. }
    cbv zeta. cbn [fst snd]. set (k1 := k_set k i _).
    destruct P as (G & X & Xb & (I1 & I2 & I3 & I4) & C & H & Bl).
    pose proof (take_node _ _ _ _ _ (ai_refs x) (ai_anchor x) I3 En Ex Es) as T. change (set_nth _ _ (k_infos k)) with (k_infos k1) in T.
    pose proof (held_node _ _ _ _ _ I3 En Ex) as Q.
    assert (P1 : pre hs taken m0 h m k1 (ptr_blocks anchor ++ strings_blocks n)).
    { split; [exact G|]. split; [exact X|]. split; [exact Xb|]. split; [split; [exact I1|]; split; [exact I2|]; split; [|exact I4]; unfold k1; cbn [k_set k_infos]; rewrite set_nth_len; exact I3|].
      split; [unfold B_ in *; clear - C T; cn|]. split; [unfold B_ in *; clear - H T; cn|exact Bl]. }
    assert (Vn : hnode_at h n = hnode_at hb n) by (eapply values_at; eassumption).
    assert (Sn : sound_node n). { destruct i as [|i]; [discriminate|]. cbn [at_index] in En. apply nth_error_In in En. destruct Sd as (_ & F & _). rewrite Forall_forall in F. exact (F _ En). }
    destruct Sn as [Tn Sn].
    assert (Ht : forall default, k_tag_is (hn_tag n) default h = HOk (str_eqb (n_tag (hnode_at hb n)) default) h).
    { intros default. unfold k_tag_is, hbind. rewrite h_read_ok; [|exact Tn|unfold strings_blocks, B_ in *; clear - H T; cn]. rewrite <- Vn. reflexivity. }
    unfold hnode_at in *. cbn [n_tag n_data] in *.
    assert (Vt : str_at hb (hn_tag n) = str_at h (hn_tag n)) by (injection Vn as A _; symmetry; exact A).
    destruct (hn_data n) as [v st|items st|pairs st] eqn:Ed; cbn beta iota.
    - rewrite (bind_ok _ _ _ _ _ (Ht _)). assert (Vv : str_at hb v = str_at h v) by (injection Vn as _ A; symmetry; exact A).
      apply (last_sim hs taken m0 h m k1); [cbn [ev_blocks]; unfold strings_blocks in P1; rewrite Ed in P1; exact P1|exact Sn|].
      cbn [event_at]. rewrite (opt_str h _ Tn), Vt, Vv. reflexivity.
    - rewrite (bind_ok _ _ _ _ _ (Ht _)). rewrite (fun y => bind_ok _ _ _ _ _ (h_touch_ok (a_at items) h Sn y)).
      2:{ unfold rest_blocks in Q. cbn [fst snd] in Q. rewrite Ed in Q. unfold B_ in *. clear - H Q. cn. }
      apply (collection_sim (h_dump_node f) (dump_node f values) (a_els items) (HSeqStart anchor (hn_tag n) _ st) HSeqEnd); [exact IH| |exact Logic.I| |reflexivity|exact Logic.I|reflexivity].
      + cbn [ev_blocks]. unfold strings_blocks in P1. rewrite Ed, app_nil_r in P1. exact P1.
      + cbn [event_at]. rewrite (opt_str h _ Tn), Vt. reflexivity.
    - rewrite (bind_ok _ _ _ _ _ (Ht _)). rewrite (fun y => bind_ok _ _ _ _ _ (h_touch_ok (a_at pairs) h Sn y)).
      2:{ unfold rest_blocks in Q. cbn [fst snd] in Q. rewrite Ed in Q. unfold B_ in *. clear - H Q. cn. }
      apply (collection_sim (h_dump_node f) (dump_node f values) (flat_pairs (a_els pairs)) (HMapStart anchor (hn_tag n) _ st) HMapEnd); [exact IH| |exact Logic.I| |reflexivity|exact Logic.I|reflexivity].
      + cbn [ev_blocks]. unfold strings_blocks in P1. rewrite Ed, app_nil_r in P1. exact P1.
      + cbn [event_at]. rewrite (opt_str h _ Tn), Vt. reflexivity.
  Qed.
  Lemma node_sim fuel : forall i hs taken m0 h m k, pre hs taken m0 h m k [] ->
    sim hs taken m0 (h_dump_node fuel (m, k) i h) (fun sink => dump_node fuel values (V m k sink) i).
  Proof.
    induction fuel as [|f IH]; intros i hs taken m0 h m k P.
    { cbn [h_dump_node dump_node]. apply none_sim; [exact P| |left; discriminate]. exists []. reflexivity. }
    cbn [h_dump_node dump_node snd]. pose proof P as (G & X & Xb & Ik & C & H & Bl). destruct (held_base h m k [] Ik H) as (H1 & H2 & H3). destruct Ik as (I1 & I2 & I3 & I4).
    assert (T1 : h_touch (a_at (hd_nodes (k_doc k))) h = HOk tt h) by (rewrite I1; apply h_touch_ok; [apply Sd|exact H2]).
    assert (T2 : h_touch (k_anchors k) h = HOk tt h) by (rewrite I2; apply h_touch_ok; [congruence|exact H3]).
    rewrite (bind_ok _ _ _ _ _ T1), (bind_ok _ _ _ _ _ T2). unfold k_node. rewrite I1.
    eapply sim_ext; [intros sink; rewrite at_index_map; cbn [V dm_anchors]; reflexivity|].
    destruct (at_index nodes i) as [n|] eqn:En; cbn [option_map]; [|left; split; [reflexivity|exists []; reflexivity]].
    destruct (at_index (k_infos k) i) as [x|] eqn:Ex; [|left; split; [reflexivity|exists []; reflexivity]].
    change (fun p : ptr * bool => _) with (fun p : ptr * bool => let (anchor, ok) := p in if negb ok then hret ((m, k), KDone false) else body_heap f n x i anchor (m, k)).
    eapply sim_ext with (F' := fun sink => body_value f (hnode_at hb n) x i (if (ai_anchor x =? 0)%nat then None else Some (generate_anchor (ai_anchor x))) (V m k sink)); [reflexivity|].
    destruct (ai_anchor x =? 0)%nat.
    { rewrite (bind_ok _ _ (@None nat, true) h h eq_refl). cbn [negb]. apply (body_sim f n x i None hs taken m0 h m k IH P En Ex). }
    destruct (h_malloc_does (generate_anchor (ai_anchor x)) h G) as (a & g & h1 & E1 & G1 & X1 & C1 & -> & R & Y).
    assert (Em : (a <~ h_malloc (generate_anchor (ai_anchor x)) ;; hret (a, negb (is_null a))) h = HOk (a, negb (is_null a)) h1) by (rewrite (bind_ok _ _ _ _ _ E1); reflexivity).
    rewrite (bind_ok _ _ _ _ _ Em). cbn beta iota.
    assert (P1 : pre hs taken m0 h1 m k (ptr_blocks a)).
    { split; [exact G1|]. split; [eapply ext_trans; eassumption|]. split; [eapply ext_trans; eassumption|]. split; [split; [exact I1|split; [exact I2|split; [exact I3|exact I4]]]|].
      split; [unfold B_ in *; clear - C C1; cn|]. split; [unfold B_ in *; clear - H C1; cn|exact Bl]. }
    destruct a as [b|]; cbn [is_null negb].
    - destruct R as [R|(b' & Eb & R)]; [discriminate|]. injection Eb as <-. rewrite <- R.
      apply (body_sim f n x i (Some b) hs taken m0 h1 m k IH P1 En Ex).
    - apply none_sim; [exact P1| |right; intros g; apply (Y (proj2 X g)); reflexivity].
      exists [false]. intros rest. unfold body_value. cbn [dout]. destruct (ai_serialized x); [exists (k_infos k), (k_last k); split; [exact I3|reflexivity]|].
      exists (set_nth (i - 1) (mkInfo (ai_refs x) (ai_anchor x) true) (k_infos k)), (k_last k). split; [rewrite set_nth_len; exact I3|].
      cbn [hnode_at n_data]. destruct (hn_data n); reflexivity.
  Qed.
End Dumping.
