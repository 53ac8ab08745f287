From Verif Require Import Base Utf8Spec ReaderModel ApiModel ApiProofs Types DocModel DocSpec.

Lemma utf8_good_spec bs : Forall byte_ok bs -> utf8_good bs = true <-> utf8_like bs.
Proof.
  intros H. unfold utf8_good, utf8_like. destruct (utf8_accepted_spec bs H) as (b & -> & Hb).
  destruct b; [tauto|]. split; intros X; [discriminate|]. apply Hb in X. discriminate.
Qed.

Lemma tag_or_ok d t : Forall byte_ok d -> Forall byte_ok (tag_or [] t) -> Forall byte_ok (tag_or d t).
Proof. destruct t; auto. Qed.

Lemma nth_app_last {A} (l : list A) x : nth_error (l ++ [x]) (length l) = Some x.
Proof. rewrite nth_error_app2, Nat.sub_diag by lia. reflexivity. Qed.

Lemma push_node_ok d n : exists d', push_node d n true = (DRet (S (length (d_nodes d))), d') /\ adds d n (S (length (d_nodes d))) d'.
Proof.
  unfold push_node. eexists. split; [rewrite app_length; cbn [length]; rewrite Nat.add_1_r; reflexivity|].
  unfold adds, node_at. cbn [d_nodes]. split; [reflexivity|]. split; [rewrite app_length; cbn [length]; lia|].
  split; [apply nth_app_last|]. split; [|repeat split].
  intros [|i] Hi; [reflexivity|].
  destruct (Nat.lt_ge_cases i (length (d_nodes d))).
  - rewrite nth_error_app1 by lia. reflexivity.
  - transitivity (@None node); [|symmetry]; apply nth_error_None; [rewrite app_length; cbn [length]|]; lia.
Qed.

Lemma set_nth_length {A} n (x : A) l : length (set_nth n x l) = length l.
Proof. revert n. induction l; intros [|n]; cbn [set_nth length]; auto. Qed.
Lemma set_nth_same {A} n (x : A) l : (n < length l)%nat -> nth_error (set_nth n x l) n = Some x.
Proof. revert n. induction l; intros [|n] H; cbn [set_nth length nth_error] in *; try lia; auto. apply IHl. lia. Qed.
Lemma set_nth_other {A} n m (x : A) l : n <> m -> nth_error (set_nth n x l) m = nth_error l m.
Proof. revert n m. induction l; intros [|n] [|m] H; cbn [set_nth nth_error]; auto; try congruence. Qed.

Lemma get_node_at d i : get_node d i = if (0 <? i)%Z then node_at d (Z.to_nat i) else None.
Proof.
  unfold get_node, node_at. destruct (Z.ltb_spec 0 i); [|reflexivity].
  destruct (Z.to_nat i) as [|k] eqn:E; [lia|]. replace (Z.to_nat (i - 1)) with k by lia.
  destruct (Z.leb_spec i (Z.of_nat (length (d_nodes d)))); cbn [andb]; [reflexivity|].
  symmetry. apply nth_error_None. lia.
Qed.
Lemma node_at_lt d i n : node_at d i = Some n -> (0 < i <= length (d_nodes d))%nat.
Proof.
  destruct i; cbn [node_at]; [discriminate|]. intros H.
  assert (nth_error (d_nodes d) i <> None) by congruence. apply nth_error_Some in H0. lia.
Qed.
Lemma node_at_some d i : (0 < i <= length (d_nodes d))%nat -> exists n, node_at d i = Some n.
Proof.
  destruct i; [lia|]. intros H. cbn [node_at]. destruct (nth_error (d_nodes d) i) eqn:E; [eauto|].
  apply nth_error_None in E. lia.
Qed.
Lemma valid_id_spec d i : valid_id d i = true <-> exists k n, i = Z.of_nat k /\ node_at d k = Some n.
Proof.
  unfold valid_id. split.
  - intros H. destruct (node_at_some d (Z.to_nat i)) as [n Hn]; [lia|]. exists (Z.to_nat i), n. split; [lia|assumption].
  - intros (k & n & -> & H). apply node_at_lt in H. lia.
Qed.
Lemma set_node_replaces d s n : (0 < s <= length (d_nodes d))%nat -> replaces d s n (set_node d (Z.of_nat s) n).
Proof.
  intros H. destruct s as [|k]; [lia|]. unfold replaces, set_node, node_at. cbn [d_nodes].
  replace (Z.to_nat (Z.of_nat (S k) - 1)) with k by lia.
  rewrite set_nth_length. split; [reflexivity|]. split; [apply set_nth_same; lia|]. split; [|repeat split].
  intros [|i] Hi; [reflexivity|]. apply set_nth_other. lia.
Qed.

Lemma dstep_ok d op alloc : op_bytes_ok op -> let (r, d') := dstep d op alloc in call_ok d alloc op r d'.
Proof.
  intros HB. destruct op as [tag value style|tag style|tag style|s i|s k v]; cbn [dstep op_bytes_ok] in *.
  - unfold add_scalar. fold (tag_or default_scalar_tag tag). destruct HB as [HB1 HB2].
    apply (tag_or_ok default_scalar_tag) in HB1; [|repeat constructor].
    pose proof (utf8_good_spec _ HB1) as G1. pose proof (utf8_good_spec _ HB2) as G2.
    destruct (utf8_good (tag_or default_scalar_tag tag)); cbn [negb].
    + destruct (utf8_good value); cbn [negb].
      * destruct alloc.
        -- destruct (push_node_ok d (mkNode (tag_or default_scalar_tag tag) (NScalar value style))) as (d' & -> & Ha).
           apply ok_scalar; tauto.
        -- apply bad_scalar. auto.
      * apply bad_scalar. right. left. intros X. apply G2 in X. discriminate.
    + apply bad_scalar. left. intros X. apply G1 in X. discriminate.
  - unfold add_sequence. fold (tag_or default_sequence_tag tag).
    apply (tag_or_ok default_sequence_tag) in HB; [|repeat constructor].
    pose proof (utf8_good_spec _ HB) as G1.
    destruct (utf8_good (tag_or default_sequence_tag tag)); cbn [negb].
    + destruct alloc.
      * destruct (push_node_ok d (mkNode (tag_or default_sequence_tag tag) (NSequence [] style))) as (d' & -> & Ha).
        apply ok_sequence; tauto.
      * apply bad_sequence. auto.
    + apply bad_sequence. left. intros X. apply G1 in X. discriminate.
  - unfold add_mapping. fold (tag_or default_mapping_tag tag).
    apply (tag_or_ok default_mapping_tag) in HB; [|repeat constructor].
    pose proof (utf8_good_spec _ HB) as G1.
    destruct (utf8_good (tag_or default_mapping_tag tag)); cbn [negb].
    + destruct alloc.
      * destruct (push_node_ok d (mkNode (tag_or default_mapping_tag tag) (NMapping [] style))) as (d' & -> & Ha).
        apply ok_mapping; tauto.
      * apply bad_mapping. auto.
    + apply bad_mapping. left. intros X. apply G1 in X. discriminate.
  - unfold append_sequence_item. rewrite get_node_at.
    pose proof (valid_id_spec d i) as V.
    destruct (Z.ltb_spec 0 s) as [Hs|Hs].
    + destruct (node_at d (Z.to_nat s)) as [[tag data]|] eqn:Es.
      2:{ apply assert_item. intros (s' & i' & tag & items & style & m & -> & -> & E1 & E2). rewrite Nat2Z.id in Es. congruence. }
      destruct data as [value style|items style|pairs style].
      1,3: apply assert_item; intros (s' & i' & tag' & items' & style' & m & -> & -> & E1 & E2); rewrite Nat2Z.id in Es; congruence.
      destruct (valid_id d i).
      * destruct (proj1 V eq_refl) as (k & n & -> & Hk). cbn [negb]. rewrite Nat2Z.id.
        replace s with (Z.of_nat (Z.to_nat s)) by lia.
        destruct alloc.
        -- eapply ok_item; eauto. apply set_node_replaces. eapply node_at_lt; eauto.
        -- eapply mem_item; eauto.
      * cbn [negb]. apply assert_item. intros (s' & i' & tag' & items' & style' & m & -> & -> & E1 & E2).
        assert (false = true) by (apply V; eauto). discriminate.
    + apply assert_item. intros (s' & i' & tag' & items' & style' & m & -> & -> & E1 & E2). apply node_at_lt in E1. lia.
  - unfold append_mapping_pair. rewrite get_node_at.
    pose proof (valid_id_spec d k) as V1. pose proof (valid_id_spec d v) as V2.
    destruct (Z.ltb_spec 0 s) as [Hs|Hs].
    + destruct (node_at d (Z.to_nat s)) as [[tag data]|] eqn:Es.
      2:{ apply assert_pair. intros (s' & k' & v' & tag & items & style & m1 & m2 & -> & -> & -> & E1 & E2 & E3). rewrite Nat2Z.id in Es. congruence. }
      destruct data as [value style|items style|pairs style].
      1,2: apply assert_pair; intros (s' & k' & v' & tag' & items' & style' & m1 & m2 & -> & -> & -> & E1 & E2 & E3); rewrite Nat2Z.id in Es; congruence.
      destruct (valid_id d k); [destruct (valid_id d v)|]; cbn [negb andb].
      * destruct (proj1 V1 eq_refl) as (k' & n1 & -> & Hk). destruct (proj1 V2 eq_refl) as (v' & n2 & -> & Hv). rewrite !Nat2Z.id.
        replace s with (Z.of_nat (Z.to_nat s)) by lia.
        destruct alloc.
        -- eapply ok_pair; eauto. apply set_node_replaces. eapply node_at_lt; eauto.
        -- eapply mem_pair; eauto.
      * apply assert_pair. intros (s' & k' & v' & tag' & items' & style' & m1 & m2 & -> & -> & -> & E1 & E2 & E3).
        assert (false = true) by (apply V2; eauto). discriminate.
      * apply assert_pair. intros (s' & k' & v' & tag' & items' & style' & m1 & m2 & -> & -> & -> & E1 & E2 & E3).
        assert (false = true) by (apply V1; eauto). discriminate.
    + apply assert_pair. intros (s' & k' & v' & tag' & items' & style' & m1 & m2 & -> & -> & -> & E1 & E2 & E3). apply node_at_lt in E1. lia.
Qed.

Lemma adds_closed d n id d' : adds d n id d' -> children n = [] -> closed d -> closed d'.
Proof.
  intros (E & L & A & O & _) Hc C i m c Hi Hin.
  destruct (Nat.eq_dec i id) as [->|Hne]; [assert (m = n) by congruence; subst; rewrite Hc in Hin; destruct Hin|].
  rewrite O in Hi by assumption. destruct (C i m c Hi Hin) as [m' Hm]. exists m'. rewrite O; [assumption|].
  apply node_at_lt in Hm. lia.
Qed.
Lemma replaces_closed d n id d' : replaces d id n d' ->
  (forall c, In c (children n) -> exists m, node_at d c = Some m) -> closed d -> closed d'.
Proof.
  intros (L & A & O & _) Hc C i m c Hi Hin.
  assert (X : exists m, node_at d c = Some m).
  { destruct (Nat.eq_dec i id) as [->|Hne]; [assert (m = n) by congruence; subst; auto|].
    rewrite O in Hi by assumption. eauto. }
  destruct X as [m' Hm]. apply node_at_some. apply node_at_lt in Hm. lia.
Qed.

Lemma call_closed d alloc op r d' : call_ok d alloc op r d' -> closed d -> closed d'.
Proof.
  intros H C. inversion H; subst; try assumption.
  1-3: eapply adds_closed; eauto; reflexivity.
  - eapply replaces_closed; eauto. cbn [children n_data]. intros c Hin. apply in_app_iff in Hin. destruct Hin as [Hin|[<-|[]]]; [|eauto].
    match goal with H : node_at _ _ = Some (mkNode _ _) |- _ => exact (C _ _ c H Hin) end.
  - eapply replaces_closed; eauto. cbn [children n_data]. intros c Hin. rewrite flat_map_app in Hin. apply in_app_iff in Hin.
    destruct Hin as [Hin|[<-|[<-|[]]]]; [|cbn [fst]; eauto|cbn [snd]; eauto]. match goal with H : node_at _ _ = Some (mkNode _ _) |- _ => exact (C _ _ c H Hin) end.
Qed.

Lemma drun_ok : forall ops d, Forall (fun o => op_bytes_ok (fst o)) ops -> closed d ->
  exists ops1 ops2, ops = ops1 ++ ops2 /\
    calls_ok d ops1 (fst (drun d ops)) (snd (drun d ops)) /\ closed (snd (drun d ops)) /\
    (ops2 = [] \/ exists rs, fst (drun d ops) = rs ++ [DAssert]).
Proof.
  induction ops as [|[op alloc] ops IH]; intros d HB C; cbn [drun].
  - exists [], []. cbn [fst snd]. repeat split; auto. constructor.
  - inversion HB; subst. pose proof (dstep_ok d op alloc ltac:(assumption)) as K.
    destruct (dstep d op alloc) as [[r|] d1].
    + destruct (IH d1 ltac:(assumption) (call_closed _ _ _ _ _ K C)) as (ops1 & ops2 & -> & R & C' & E).
      destruct (drun d1 (ops1 ++ ops2)) as [rs d2]. cbn [fst snd] in *.
      exists ((op, alloc) :: ops1), ops2. split; [reflexivity|]. split; [econstructor; eauto|]. split; [assumption|].
      destruct E as [E|[rs' ->]]; [left; assumption|right]. exists (DRet r :: rs'). reflexivity.
    + exists [(op, alloc)], ops. cbn [fst snd]. split; [reflexivity|]. split; [econstructor; [exact K|constructor]|].
      split; [eapply call_closed; eauto|]. right. exists []. reflexivity.
Qed.

Lemma calls_closed d ops rs d' : calls_ok d ops rs d' -> closed d -> closed d'.
Proof. induction 1; intros; auto. apply IHcalls_ok. eapply call_closed; eauto. Qed.

Lemma document_initialize_ok v tags si ei alloc d : document_initialize v tags si ei alloc = Some d ->
  d_nodes d = [] /\ closed d.
Proof.
  unfold document_initialize. destruct (_ && _); [|discriminate]. intros E. injection E as <-. split; [reflexivity|].
  intros [|[|i]] n c Hn; discriminate.
Qed.

Lemma get_node_spec d i n : get_node d i = Some n <-> exists k, i = Z.of_nat k /\ node_at d k = Some n.
Proof.
  rewrite get_node_at. destruct (Z.ltb_spec 0 i).
  - split; intros X; [exists (Z.to_nat i); split; [lia|assumption]|]. destruct X as (k & -> & X). rewrite Nat2Z.id. assumption.
  - split; [discriminate|]. intros (k & -> & X). apply node_at_lt in X. lia.
Qed.
Lemma get_node_some d i : (exists n, get_node d i = Some n) <-> (1 <= i <= Z.of_nat (length (d_nodes d)))%Z.
Proof.
  split.
  - intros [n H]. apply get_node_spec in H. destruct H as (k & -> & H). apply node_at_lt in H. lia.
  - intros H. destruct (node_at_some d (Z.to_nat i)) as [n Hn]; [lia|]. exists n. apply get_node_spec. exists (Z.to_nat i). split; [lia|assumption].
Qed.
Lemma document_history v tags si ei alloc d ops :
  document_initialize v tags si ei alloc = Some d ->
  Forall (fun o => op_bytes_ok (fst o)) ops ->
  d_nodes d = [] /\
  exists ops1 ops2, ops = ops1 ++ ops2 /\
    calls_ok d ops1 (fst (drun d ops)) (snd (drun d ops)) /\ closed (snd (drun d ops)) /\
    (ops2 = [] \/ exists rs, fst (drun d ops) = rs ++ [DAssert]).
Proof. intros E H. apply document_initialize_ok in E. destruct E as [E C]. split; [assumption|]. apply drun_ok; assumption. Qed.
