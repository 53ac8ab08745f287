(* One event through the emitter's state machine. *)
From Verif Require Import Base Utf8Spec ReaderModel CharSpec Types TreeSpec EventAcc WriterModel WriterSpec PenModel EmitModel EmitSpec EmitInv.

Lemma document_start_step m e first : einv m ADocs -> stepped m ADocs e (emit_document_start m e first).
Proof.
  intros [Ia Io Ii If It]. unfold emit_document_start.
  assert (St : (m_state m = FirstDocStart \/ m_state m = DocStart) /\ m_states m = []) by (inversion Ia; subst; auto).
  destruct St as [St Sl]. rewrite Sl in *.
  assert (Ii' : length (m_indents m) = 0%nat) by (rewrite Ii; destruct St as [-> | ->]; reflexivity).
  assert (If' : m_flow m = 0%Z) by (rewrite If; destruct St as [-> | ->]; reflexivity).
  destruct e; try (right; split; [left; reflexivity|eexists _, _; split; reflexivity]).
  - (* STREAM-END *)
    left. eexists _, _. split; [reflexivity|]. split; [split; [exact (fun x => x)|exact I]|]. split; [reflexivity|].
    match goal with |- einv (set_state (on_pen _ ?x) _) _ /\ _ => set (m1 := x) end.
    assert (K : m_states m1 = [] /\ m_indents m1 = m_indents m /\ m_flow m1 = m_flow m /\ m_cfg m1 = m_cfg m /\ m_events m1 = m_events m).
    { unfold m1. destruct (p_open (m_pen m) =? 2); repeat split; assumption. }
    destruct K as (K1 & K2 & K3 & K4 & K5). split; [|split; [exact K5|cbn; congruence]]. constructor; cbn [set_state on_pen set_pen m_state m_states m_indents m_flow m_tags].
    + rewrite K1. constructor.
    + reflexivity.
    + rewrite K1, K2. exact Ii'.
    + rewrite K1, K3. exact If'.
    + intros [D|D]; discriminate.
  - (* DOCUMENT-START *)
    destruct (match v with Some v0 => analyze_version v0 | None => None end) as [x|] eqn:V; cbn [fail_if ebind].
    + right. split; [right|eexists _, _; split; reflexivity]. intros [_ [Vv _]]. destruct v as [[ma mi]|]; [|discriminate].
      destruct (Vv _ _ eq_refl). assert (analyze_version (ma, mi) = None) by (apply version_valid; auto). congruence.
    + assert (Vok : forall ma mi, v = Some (ma, mi) -> ma = 1 /\ (mi = 1 \/ mi = 2)).
      { intros ma mi ->. apply version_valid in V. exact V. }
      destruct (directive_tags tags m) as [(F & Nd & _ & E)|(F & x & m' & E & Ev)].
      2: { right. split; [right|].
           - intros [_ (_ & F1 & F2)]. destruct F as [F|[F|(t & d & _ & D & _)]]; [contradiction|contradiction|]. rewrite It in D by auto. destruct D.
           - change (fun t m => fail_if (analyze_tag_directive t) m >>= (fun m0 => append_tag m0 t false)) with tag_step. rewrite E. eexists _, _. split; [reflexivity|exact Ev]. }
      change (fun t m => fail_if (analyze_tag_directive t) m >>= (fun m0 => append_tag m0 t false)) with tag_step. rewrite E. cbn [ebind].
      destruct (append_tags_defaults default_tags (set_tags m (m_tags m ++ tags))) as (m1 & E1 & C1 & C2 & C3 & C4 & C5 & C6 & C7 & C8 & C9). rewrite E1. cbn [ebind].
      left. eexists _, _. split; [reflexivity|]. split; [split; [exact (fun x => x)|exact (conj Vok (conj F Nd))]|]. split; [reflexivity|].
      set (dir := has_directives v tags) in *.
      match goal with |- einv (on_pen _ (set_state ?x _)) _ /\ _ => set (m5 := x) end.
      match eval unfold m5 in m5 with if _ then _ else ?x => set (m4 := x) in m5 end.
      match eval unfold m4 in m4 with fold_left _ _ ?x => set (m3 := x) in m4 end.
      match eval unfold m3 in m3 with match v with Some _ => _ | None => on_pen _ ?x end => set (m2 := x) in m3 end.
      assert (Sm : same (set_tags m (m_tags m1)) m3 /\ m_states m3 = []).
      { assert (S1 : same (set_tags m (m_tags m1)) m1 /\ m_states m1 = []) by (split; [split; [exact C1|split; [exact C3|split; [reflexivity|split; [exact C5|split; [exact C6|exact C7]]]]]|rewrite C4; exact Sl]).
        assert (S2 : same (set_tags m (m_tags m1)) m2 /\ m_states m2 = []) by (unfold m2; destruct (dir && _); exact S1).
        unfold m3. destruct v; exact S2. }
      assert (S4 : same m3 m4 /\ m_states m4 = m_states m3).
      { unfold m4. generalize m3. clear. induction tags as [|t ts IH]; intros m0; cbn [fold_left]; [repeat split|].
        match goal with |- same _ (fold_left _ _ ?x) /\ _ => destruct (IH x) as [H1 H2] end. split; [exact H1|exact H2]. }
      assert (S5 : same m4 m5 /\ m_states m5 = m_states m4) by (unfold m5; destruct (implicit && first && negb (g_canonical (m_cfg m1)) && negb dir); cbn [negb]; [repeat split|]; destruct (g_canonical (m_cfg (indicator s_dashes true false false (indent_ m4)))); repeat split).
      destruct Sm as [Sm Sl1], S4 as [S4 Sl2], S5 as [S5 Sl3].
      pose proof (same_trans _ _ _ (same_trans _ _ _ Sm S4) S5) as (S1 & S2 & S3 & S6 & S7 & S8). cbn in S1, S2, S3, S6, S7, S8.
      split; [|split; [exact S2|cbn; congruence]].
      constructor; cbn [set_state on_pen set_pen m_state m_states m_indents m_flow m_tags].
      * rewrite Sl3, Sl2, Sl1. constructor; reflexivity.
      * reflexivity.
      * rewrite Sl3, Sl2, Sl1, S6. exact Ii'.
      * rewrite Sl3, Sl2, Sl1, S8. exact If'.
      * intros [D|D]; discriminate.
Qed.

Lemma indent_if_pen b m : exists p, indent_if b m = set_pen m p.
Proof. unfold indent_if. destruct b; [eexists; reflexivity|exists (m_pen m); destruct m; reflexivity]. Qed.

Lemma frames_cons s l st : frames (s :: l) = Some st -> exists f fs, frame s = Some f /\ frames l = Some fs /\ st = f :: fs.
Proof. cbn. destruct (frame s), (frames l); intros E; try discriminate. injection E as <-. eauto. Qed.

Lemma close_flow_eq c first m x xs s l : m_indents m = x :: xs -> m_states m = s :: l ->
  exists p, close_flow c first m = EOk (set_states (set_pen (set_indents (set_flow m (m_flow m - 1)) x xs) p) s l).
Proof.
  intros Hi Hs. unfold close_flow. erewrite pop_indent_eq by exact Hi. cbn [ebind].
  match goal with |- context [if ?b then _ else _] => destruct b end; erewrite pop_state_eq by exact Hs; eexists; reflexivity.
Qed.



(* inside a collection: [frame_ok m f fs first k fl] where [k] indents and [fl] flow levels are due to the
   collection itself *)
Definition inside (m : emitter) (f : aframe) (fs : list aframe) (k fl : nat) : Prop :=
  frames (m_states m) = Some fs /\ forallb (fun x => negb (is_first x)) (m_states m) = true /\ aok (AIn (f :: fs)) = true /\
  length (m_indents m) = (k + count has_indent (m_states m))%nat /\ m_flow m = Z.of_nat (fl + count is_flow (m_states m)) /\
  f <> FRoot /\ f <> FDocEnd.

Lemma inside_end m m0 f fs k fl e r :
  inside m f fs k fl -> astep (AIn (f :: fs)) e = Some (AIn fs) -> content_ok e ->
  (forall x xs s l, length (x :: xs) = S (count has_indent (s :: l)) -> m_states m = s :: l ->
    (k = 0%nat -> x :: xs = m_indent m :: m_indents m) -> (k = 1%nat -> x :: xs = m_indents m) ->
    exists m', r = EOk m' /\ m_state m' = s /\ m_states m' = l /\ m_indents m' = xs /\ m_flow m' = (m_flow m - Z.of_nat fl)%Z /\ m_events m' = m_events m /\ m_cfg m' = m_cfg m) ->
  (k = 0 \/ k = 1)%nat -> m_events m = m_events m0 -> m_cfg m = m_cfg m0 ->
  stepped m0 (AIn (f :: fs)) e r.
Proof.
  intros (F & Nf & Ok & Hi & Hw & N1 & N2) A C H K Ev Cf. left.
  destruct (m_states m) as [|s l] eqn:Es.
  { cbn in F. injection F as <-. destruct f; cbn in Ok; congruence. }
  assert (B : exists x xs, length (x :: xs) = S (count has_indent (s :: l)) /\ (k = 0%nat -> x :: xs = m_indent m :: m_indents m) /\ (k = 1%nat -> x :: xs = m_indents m)).
  { destruct K as [-> | ->].
    - exists (m_indent m), (m_indents m). cbn [length] in *. split; [lia|]. split; congruence.
    - destruct (m_indents m) as [|x xs]; [cbn in Hi; lia|]. exists x, xs. split; [exact Hi|]. split; congruence. }
  destruct B as (x & xs & B1 & B2 & B3). destruct (H x xs s l B1 eq_refl B2 B3) as (m' & -> & E1 & E2 & E3 & E4 & E5 & E6).
  exists (AIn fs), m'. split; [exact A|]. split; [exact C|]. split; [reflexivity|]. split; [|split; congruence].
  apply frames_cons in F as (f' & fs' & F1 & F2 & ->). constructor.
  - rewrite E1, E2. constructor; [cbn [frames]; rewrite F1, F2; reflexivity|]. cbn in Nf. apply andb_prop in Nf as [_ Nf]. exact Nf.
  - cbn [aok] in *. rewrite astack_cons in Ok. apply andb_prop in Ok as [_ Ok]. exact Ok.
  - rewrite E3, E1, E2. cbn [length] in B1. lia.
  - rewrite E4, E1, E2, Hw. lia.
  - intros [D|D]; discriminate.
Qed.

Lemma inside_node m m1 e mapping simple s f f' fs k fl :
  inside m f fs k fl -> m_states m1 = s :: m_states m -> frame s = Some f' -> has_indent s = true -> is_first s = false ->
  after_node f = Some f' ->
  (length (m_indents m1) + k = length (m_indents m) + 1)%nat -> (m_flow m1 + Z.of_nat fl = m_flow m + if is_flow s then 1 else 0)%Z ->
  m_cfg m1 = m_cfg m -> m_tags m1 = m_tags m -> m_data m1 = m_data m -> m_events m1 = m_events m ->
  analyze_event (m_cfg m) (m_tags m) e = inr (m_data m) ->
  (node_event e = false -> astep (AIn (f :: fs)) e = None) ->
  stepped m (AIn (f :: fs)) e (emit_node m1 e mapping simple).
Proof.
  intros (F & Nf & Ok & Hi & Hw & N1 & N2) Hl Hs Hh Hf Af Hk Hg Ec Et Ed Ee Ha Hn.
  eapply node_stepped with (s := s) (l := m_states m) (f' := f'); try assumption.
  - cbn [frames]. rewrite Hs, F. reflexivity.
  - rewrite count_cons, Hh. lia.
  - rewrite count_cons. destruct (is_flow s); lia.
Qed.

Lemma flow_seq_step m e (first_ : bool) fs :
  inside m FSeq fs (if first_ then 0 else 1) (if first_ then 0 else 1) -> analyze_event (m_cfg m) (m_tags m) e = inr (m_data m) ->
  stepped m (AIn (FSeq :: fs)) e (emit_flow_sequence_item m e first_).
Proof.
  intros In Ha. unfold emit_flow_sequence_item.
  destruct e; try (
    match goal with |- context [indent_if ?b ?x] => destruct (indent_if_pen b x) as [p ->] end;
    apply inside_node with (s := FlowSeqItem) (f' := FSeq) (k := if first_ then 0%nat else 1%nat) (fl := if first_ then 0%nat else 1%nat); try assumption;
    try (destruct first_; cbn; lia); try (destruct first_; reflexivity);
    let N := fresh in intros N; first [discriminate N|destruct fs; reflexivity]).
  eapply inside_end; [exact In|destruct fs; reflexivity|split; [exact (fun x => x)|exact I]| |destruct first_; auto|reflexivity|reflexivity].
  intros x xs s l _ Hs H0 H1. destruct first_.
  - specialize (H0 eq_refl). destruct (close_flow_eq 0x5D true (open_flow 0x5B m) x xs s l) as [p ->]; [symmetry; exact H0|exact Hs|].
    eexists. split; [reflexivity|]. cbn. repeat split; lia.
  - specialize (H1 eq_refl). destruct (close_flow_eq 0x5D false m x xs s l) as [p ->]; [symmetry; exact H1|exact Hs|].
    eexists. split; [reflexivity|]. cbn. repeat split; lia.
Qed.
Lemma flow_key_step m e (first_ : bool) fs :
  inside m FKey fs (if first_ then 0 else 1) (if first_ then 0 else 1) -> analyze_event (m_cfg m) (m_tags m) e = inr (m_data m) ->
  stepped m (AIn (FKey :: fs)) e (emit_flow_mapping_key m e first_).
Proof.
  intros In Ha. unfold emit_flow_mapping_key.
  destruct e; try (
    match goal with |- context [indent_if ?b ?x] => destruct (indent_if_pen b x) as [p ->] end;
    match goal with |- context [if ?b then emit_node _ _ _ _ else _] => destruct b end;
    [apply inside_node with (s := FlowMapSimple) (f' := FVal) (k := if first_ then 0%nat else 1%nat) (fl := if first_ then 0%nat else 1%nat)
    |apply inside_node with (s := FlowMapValue) (f' := FVal) (k := if first_ then 0%nat else 1%nat) (fl := if first_ then 0%nat else 1%nat)]; try assumption;
    try (destruct first_; cbn; lia); try (destruct first_; reflexivity);
    let N := fresh in intros N; first [discriminate N|destruct fs; reflexivity]).
  eapply inside_end; [exact In|destruct fs; reflexivity|split; [exact (fun x => x)|exact I]| |destruct first_; auto|reflexivity|reflexivity].
  intros x xs s l _ Hs H0 H1. destruct first_.
  - specialize (H0 eq_refl). destruct (close_flow_eq 0x7D true (open_flow 0x7B m) x xs s l) as [p ->]; [symmetry; exact H0|exact Hs|].
    eexists. split; [reflexivity|]. cbn. repeat split; lia.
  - specialize (H1 eq_refl). destruct (close_flow_eq 0x7D false m x xs s l) as [p ->]; [symmetry; exact H1|exact Hs|].
    eexists. split; [reflexivity|]. cbn. repeat split; lia.
Qed.
Lemma flow_value_step m e simple fs :
  inside m FVal fs 1 1 -> analyze_event (m_cfg m) (m_tags m) e = inr (m_data m) ->
  stepped m (AIn (FVal :: fs)) e (emit_flow_mapping_value m e simple).
Proof.
  intros In Ha. unfold emit_flow_mapping_value. destruct (indent_if_pen (wide m) m) as [p ->].
  apply inside_node with (s := FlowMapKey) (f' := FKey) (k := 1%nat) (fl := 1%nat); try assumption;
    try (destruct simple; cbn; lia); try (destruct simple; reflexivity).
  intros N. destruct e; try discriminate N; destruct fs; reflexivity.
Qed.
Lemma block_seq_step m e (first_ : bool) fs :
  inside m FSeq fs (if first_ then 0 else 1) 0 -> analyze_event (m_cfg m) (m_tags m) e = inr (m_data m) ->
  stepped m (AIn (FSeq :: fs)) e (emit_block_sequence_item m e first_).
Proof.
  intros In Ha. unfold emit_block_sequence_item.
  destruct e; try (
    apply inside_node with (s := BlockSeqItem) (f' := FSeq) (k := if first_ then 0%nat else 1%nat) (fl := 0%nat); try assumption;
    try (destruct first_; cbn; lia); try (destruct first_; reflexivity);
    let N := fresh in intros N; first [discriminate N|destruct fs; reflexivity]).
  eapply inside_end; [exact In|destruct fs; reflexivity|split; [exact (fun x => x)|exact I]| |destruct first_; auto|reflexivity|reflexivity].
  intros x xs s l _ Hs H0 H1. destruct first_.
  - specialize (H0 eq_refl). erewrite pop_indent_eq by (symmetry; exact H0). cbn [ebind]. erewrite pop_state_eq by exact Hs.
    eexists. split; [reflexivity|]. cbn. repeat split; lia.
  - specialize (H1 eq_refl). erewrite pop_indent_eq by (symmetry; exact H1). cbn [ebind]. erewrite pop_state_eq by exact Hs.
    eexists. split; [reflexivity|]. cbn. repeat split; lia.
Qed.
Lemma block_key_step m e (first_ : bool) fs :
  inside m FKey fs (if first_ then 0 else 1) 0 -> analyze_event (m_cfg m) (m_tags m) e = inr (m_data m) ->
  stepped m (AIn (FKey :: fs)) e (emit_block_mapping_key m e first_).
Proof.
  intros In Ha. unfold emit_block_mapping_key.
  destruct e; try (
    match goal with |- context [if ?b then emit_node _ _ _ _ else _] => destruct b end;
    [apply inside_node with (s := BlockMapSimple) (f' := FVal) (k := if first_ then 0%nat else 1%nat) (fl := 0%nat)
    |apply inside_node with (s := BlockMapValue) (f' := FVal) (k := if first_ then 0%nat else 1%nat) (fl := 0%nat)]; try assumption;
    try (destruct first_; cbn; lia); try (destruct first_; reflexivity);
    let N := fresh in intros N; first [discriminate N|destruct fs; reflexivity]).
  eapply inside_end; [exact In|destruct fs; reflexivity|split; [exact (fun x => x)|exact I]| |destruct first_; auto|reflexivity|reflexivity].
  intros x xs s l _ Hs H0 H1. destruct first_.
  - specialize (H0 eq_refl). erewrite pop_indent_eq by (symmetry; exact H0). cbn [ebind]. erewrite pop_state_eq by exact Hs.
    eexists. split; [reflexivity|]. cbn. repeat split; lia.
  - specialize (H1 eq_refl). erewrite pop_indent_eq by (symmetry; exact H1). cbn [ebind]. erewrite pop_state_eq by exact Hs.
    eexists. split; [reflexivity|]. cbn. repeat split; lia.
Qed.
Lemma block_value_step m e simple fs :
  inside m FVal fs 1 0 -> analyze_event (m_cfg m) (m_tags m) e = inr (m_data m) ->
  stepped m (AIn (FVal :: fs)) e (emit_block_mapping_value m e simple).
Proof.
  intros In Ha. unfold emit_block_mapping_value.
  apply inside_node with (s := BlockMapKey) (f' := FKey) (k := 1%nat) (fl := 0%nat); try assumption;
    try (destruct simple; cbn; lia); try (destruct simple; reflexivity).
  intros N. destruct e; try discriminate N; destruct fs; reflexivity.
Qed.

Lemma machine_step m e a : einv m a -> analyze_event (m_cfg m) (m_tags m) e = inr (m_data m) -> stepped m a e (state_machine m e).
Proof.
  intros Inv Ha. pose proof Inv as [Ia Io Ii If It]. unfold state_machine.
  inversion Ia as [E1 E2 E3|E1 E2 E3|E1 E2 E3|E1 E2 E3|s l st Fr Nf E1 E2 E3]; symmetry in E1, E2; subst a.
  - (* STREAM-START *)
    unfold emit_stream_start. destruct e; try (right; split; [left; reflexivity|eexists _, _; split; reflexivity]).
    left. eexists _, _. split; [reflexivity|]. split; [split; [exact (fun x => x)|exact I]|]. split; [reflexivity|].
    match goal with |- einv (set_state ?x _) _ /\ _ => set (m1 := x) end.
    assert (K : m_states m1 = [] /\ m_indents m1 = m_indents m /\ m_flow m1 = m_flow m /\ g_canonical (m_cfg m1) = g_canonical (m_cfg m) /\ m_events m1 = m_events m /\ m_tags m1 = m_tags m).
    { unfold m1. destruct (encoding_eqb _ _); repeat split; assumption. }
    destruct K as (K1 & K2 & K3 & K4 & K5 & K6). split; [|split; [exact K5|exact K4]]. rewrite E1, E2 in Ii, If. constructor; cbn [set_state m_state m_states m_indents m_flow m_tags].
    + rewrite K1. constructor.
    + reflexivity.
    + rewrite K1, K2, Ii. reflexivity.
    + rewrite K1, K3, If. reflexivity.
    + intros _. rewrite K6. apply It. auto.
  - apply document_start_step. exact Inv.
  - apply document_start_step. exact Inv.
  - right. split; [left; destruct e; reflexivity|eexists _, _; split; reflexivity].
  - clear E1 E2. 
    pose proof (frames_cons _ _ _ Fr) as (f & fs & F1 & F2 & ->).
    rewrite count_cons in Ii, If.
    destruct (m_state m) eqn:Es; cbn [frame] in F1; try discriminate; injection F1 as <-; cbn [has_indent is_flow] in Ii, If.
    + (* document content *)
      unfold emit_document_content. assert (fs = []) by (destruct fs; [reflexivity|cbn in Io; discriminate]). subst fs.
      eapply node_stepped with (s := DocEnd) (l := m_states m) (f' := FDocEnd); try reflexivity; try assumption.
      * cbn [frames frame]. rewrite F2. reflexivity.
      * intros N. destruct e; try discriminate N; reflexivity.
    + (* document end *)
      assert (fs = []) by (destruct fs; [reflexivity|cbn in Io; discriminate]). subst fs.
      assert (L0 : m_states m = []) by (destruct (m_states m) as [|x xs]; [reflexivity|]; apply frames_cons in F2 as (? & ? & _ & _ & D); discriminate).
      unfold emit_document_end. destruct e; try (right; split; [left; reflexivity|eexists _, _; split; reflexivity]).
      left. eexists _, _. split; [reflexivity|]. split; [split; [exact (fun x => x)|exact I]|]. split; [reflexivity|].
      match goal with |- einv (set_tags (set_state (on_pen _ ?x) _) _) _ /\ _ => set (m1 := x) end.
      assert (K : same m m1 /\ m_states m1 = []).
      { unfold m1. destruct (negb implicit); [repeat split; assumption|]. destruct (p_open (m_pen (indent_ m)) =? 0); repeat split; assumption. }
      destruct K as ((K1 & K2 & K3 & K4 & K5 & K6) & K7). rewrite L0 in *. cbn in Ii, If.
      split; [|split; [exact K2|cbn; congruence]]. constructor; cbn [set_tags set_state on_pen set_pen m_state m_states m_indents m_flow m_tags].
      * rewrite K7. constructor.
      * reflexivity.
      * rewrite K7, K4, Ii. reflexivity.
      * rewrite K7, K6, If. reflexivity.
      * reflexivity.
    + (* flow sequence, first *) apply flow_seq_step; [|exact Ha]. split; [exact F2|]. split; [exact Nf|]. split; [exact Io|]. split; [cbn; lia|]. split; [cbn; lia|split; discriminate].
    + apply flow_seq_step; [|exact Ha]. split; [exact F2|]. split; [exact Nf|]. split; [exact Io|]. split; [cbn; lia|]. split; [cbn; lia|split; discriminate].
    + apply flow_key_step; [|exact Ha]. split; [exact F2|]. split; [exact Nf|]. split; [exact Io|]. split; [cbn; lia|]. split; [cbn; lia|split; discriminate].
    + apply flow_key_step; [|exact Ha]. split; [exact F2|]. split; [exact Nf|]. split; [exact Io|]. split; [cbn; lia|]. split; [cbn; lia|split; discriminate].
    + apply flow_value_step; [|exact Ha]. split; [exact F2|]. split; [exact Nf|]. split; [exact Io|]. split; [cbn; lia|]. split; [cbn; lia|split; discriminate].
    + apply flow_value_step; [|exact Ha]. split; [exact F2|]. split; [exact Nf|]. split; [exact Io|]. split; [cbn; lia|]. split; [cbn; lia|split; discriminate].
    + apply block_seq_step; [|exact Ha]. split; [exact F2|]. split; [exact Nf|]. split; [exact Io|]. split; [cbn; lia|]. split; [cbn; lia|split; discriminate].
    + apply block_seq_step; [|exact Ha]. split; [exact F2|]. split; [exact Nf|]. split; [exact Io|]. split; [cbn; lia|]. split; [cbn; lia|split; discriminate].
    + apply block_key_step; [|exact Ha]. split; [exact F2|]. split; [exact Nf|]. split; [exact Io|]. split; [cbn; lia|]. split; [cbn; lia|split; discriminate].
    + apply block_key_step; [|exact Ha]. split; [exact F2|]. split; [exact Nf|]. split; [exact Io|]. split; [cbn; lia|]. split; [cbn; lia|split; discriminate].
    + apply block_value_step; [|exact Ha]. split; [exact F2|]. split; [exact Nf|]. split; [exact Io|]. split; [cbn; lia|]. split; [cbn; lia|split; discriminate].
    + apply block_value_step; [|exact Ha]. split; [exact F2|]. split; [exact Nf|]. split; [exact Io|]. split; [cbn; lia|]. split; [cbn; lia|split; discriminate].
Qed.
