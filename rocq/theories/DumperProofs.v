(* The traversal behind yaml_emitter_anchor_node and yaml_emitter_dump_node. *)
From Verif Require Import Base ReaderModel Types TreeSpec DocModel DocSpec DocProofs DumperModel DumperSpec.

(* Depth-first traversal; [vis]: the nodes already serialised, in order.  The
   index is the recursion depth allowed. *)
Inductive visit (d : document) : nat -> list nat -> nat -> occ -> list nat -> Prop :=
| V_alias f vis i n : In i vis -> node_at d i = Some n -> visit d (S f) vis i (OAlias i) vis
| V_node f vis i n kids vis' : ~ In i vis -> node_at d i = Some n -> visits d f (vis ++ [i]) (children n) kids vis' ->
    visit d (S f) vis i (ONode i kids) vis'
with visits (d : document) : nat -> list nat -> list nat -> list occ -> list nat -> Prop :=
| VS_nil f vis : visits d f vis [] [] vis
| VS_cons f vis i r o os vis1 vis2 : visit d f vis i o vis1 -> visits d f vis1 r os vis2 -> visits d f vis (i :: r) (o :: os) vis2.
Scheme visit_m := Minimality for visit Sort Prop
  with visits_m := Minimality for visits Sort Prop.
Combined Scheme visit_mutual from visit_m, visits_m.

Lemma nodes_of_app a b : nodes_of (a ++ b) = nodes_of a ++ nodes_of b.
Proof. unfold nodes_of. rewrite filter_app, map_app. reflexivity. Qed.

Lemma visit_order d :
  (forall f vis i o vis', visit d f vis i o vis' -> occ_id o = i /\ vis' = vis ++ nodes_of (occurrences o)) /\
  (forall f vis l os vis', visits d f vis l os vis' -> map occ_id os = l /\ vis' = vis ++ nodes_of (flat_map occurrences os)).
Proof.
  apply visit_mutual; intros; cbn [occ_id occurrences flat_map map].
  - split; [reflexivity|]. unfold nodes_of. cbn. rewrite app_nil_r. reflexivity.
  - destruct H2 as (_ & ->). split; [reflexivity|]. rewrite <- app_assoc. reflexivity.
  - unfold nodes_of. cbn. rewrite app_nil_r. auto.
  - destruct H0 as (-> & ->), H2 as (-> & ->). split; [reflexivity|]. rewrite nodes_of_app, app_assoc. reflexivity.
Qed.

(* existence *)
Definition unvisited (d : document) (vis : list nat) : nat :=
  length (filter (fun i => if in_dec Nat.eq_dec i vis then false else true) (seq 1 (length (d_nodes d)))).
Lemma filter_len_le {A} (p q : A -> bool) l : (forall x, In x l -> p x = true -> q x = true) -> (length (filter p l) <= length (filter q l))%nat.
Proof.
  induction l as [|x l IH]; intros H; cbn; [lia|]. assert (K : (length (filter p l) <= length (filter q l))%nat) by (apply IH; intros; apply H; cbn; auto).
  destruct (p x) eqn:P; [rewrite (H x (or_introl eq_refl) P); cbn; lia|destruct (q x); cbn; lia].
Qed.
Lemma filter_len_lt {A} (p q : A -> bool) l x : (forall x, In x l -> p x = true -> q x = true) -> In x l -> p x = false -> q x = true ->
  (length (filter p l) < length (filter q l))%nat.
Proof.
  induction l as [|y l IH]; intros H I P Q; [destruct I|]. cbn.
  assert (K : (length (filter p l) <= length (filter q l))%nat) by (apply filter_len_le; intros; apply H; cbn; auto).
  destruct I as [->|I].
  - rewrite P, Q. cbn. lia.
  - assert (K' : (length (filter p l) < length (filter q l))%nat) by (apply IH; auto; intros; apply H; cbn; auto).
    destruct (p y) eqn:PY; [rewrite (H y (or_introl eq_refl) PY); cbn; lia|destruct (q y); cbn; lia].
Qed.
Lemma unvisited_mono d vis vis' : incl vis vis' -> (unvisited d vis' <= unvisited d vis)%nat.
Proof. intros I. apply filter_len_le. intros x _. destruct (in_dec Nat.eq_dec x vis'), (in_dec Nat.eq_dec x vis); auto. Qed.
Lemma node_range d i n : node_at d i = Some n -> In i (seq 1 (length (d_nodes d))).
Proof. destruct i as [|k]; cbn; [discriminate|]. intros E. apply in_seq. assert (k < length (d_nodes d))%nat by (apply nth_error_Some; congruence). lia. Qed.
Lemma unvisited_lt d vis i n : node_at d i = Some n -> ~ In i vis -> (unvisited d (vis ++ [i]) < unvisited d vis)%nat.
Proof.
  intros E N. apply (filter_len_lt _ _ _ i).
  - intros x _. destruct (in_dec Nat.eq_dec x (vis ++ [i])), (in_dec Nat.eq_dec x vis); auto. intros _. exfalso. apply n0. apply in_or_app. auto.
  - eapply node_range; eauto.
  - destruct (in_dec Nat.eq_dec i (vis ++ [i])) as [|K]; [reflexivity|]. destruct K. apply in_or_app. cbn. auto.
  - destruct (in_dec Nat.eq_dec i vis); [contradiction|reflexivity].
Qed.
Lemma visit_exists d : closed d -> forall f vis i n, (unvisited d vis < f)%nat -> node_at d i = Some n ->
  exists o vis', visit d f vis i o vis'.
Proof.
  intros C. induction f as [|f IH]; intros vis i n L E; [lia|].
  destruct (in_dec Nat.eq_dec i vis) as [I|I]; [exists (OAlias i), vis; econstructor; eauto|].
  pose proof (unvisited_lt _ _ _ _ E I) as L'. assert (L1 : (unvisited d (vis ++ [i]) < f)%nat) by lia. clear L L'.
  assert (K : forall l, incl l (children n) -> forall v, (unvisited d v < f)%nat -> exists os vis', visits d f v l os vis').
  { induction l as [|c l IHl]; intros IN v Lv; [do 2 eexists; constructor|].
    destruct (C i n c E (IN c (or_introl eq_refl))) as (m & Em). destruct (IH v c m Lv Em) as (o & v1 & V1).
    destruct (proj1 (visit_order d) _ _ _ _ _ V1) as (_ & Ev).
    destruct (IHl (fun x y => IN x (or_intror y)) v1) as (os & v2 & V2).
    - eapply Nat.le_lt_trans; [apply (unvisited_mono d v)|exact Lv]. rewrite Ev. apply incl_appl, incl_refl.
    - do 2 eexists. econstructor; eauto. }
  destruct (K (children n) (incl_refl _) _ L1) as (os & v' & V). exists (ONode i os), v'. econstructor; eauto.
Qed.
Lemma unvisited_le d : (unvisited d [] <= length (d_nodes d))%nat.
Proof. unfold unvisited. rewrite <- (seq_length (length (d_nodes d)) 1) at 2. induction (seq 1 _); cbn in *; [lia|]. lia. Qed.

(* what the traversal visits *)
Lemma visit_nodup d :
  (forall f vis i o vis', visit d f vis i o vis' -> NoDup vis -> NoDup vis') /\
  (forall f vis l os vis', visits d f vis l os vis' -> NoDup vis -> NoDup vis').
Proof.
  apply visit_mutual; intros; auto. apply H2. apply NoDup_rev in H3. rewrite <- (rev_involutive (vis ++ [i])). apply NoDup_rev.
  rewrite rev_app_distr. cbn. constructor; [|exact H3]. rewrite <- in_rev. exact H.
Qed.
Lemma visit_aliases d :
  (forall f vis i o vis', visit d f vis i o vis' -> forall b j a, occurrences o = b ++ (false, j) :: a -> In j vis \/ In (true, j) b) /\
  (forall f vis l os vis', visits d f vis l os vis' -> forall b j a, flat_map occurrences os = b ++ (false, j) :: a -> In j vis \/ In (true, j) b).
Proof.
  apply visit_mutual.
  - intros f vis i n I _ b j a E. cbn in E. destruct b as [|x b]; [inversion E; subst; auto|inversion E]. destruct b; discriminate.
  - intros f vis i n kids vis' NI E V IH b j a Q. cbn in Q. destruct b as [|x b]; [discriminate|]. inversion Q as [[X Q']]. subst x.
    destruct (IH _ _ _ Q') as [I|I]; [|right; cbn; auto]. apply in_app_or in I. cbn in I. destruct I as [I|[->|[]]]; cbn; auto.
  - intros f vis b j a E. destruct b; discriminate.
  - intros f vis i r o os vis1 vis2 V1 IH1 V2 IH2 b j a E. cbn in E.
    destruct (proj1 (visit_order d) _ _ _ _ _ V1) as (_ & Ev). subst vis1.
    apply app_eq_app in E. destruct E as (l & [(E1 & E2)|(E1 & E2)]).
    + destruct l as [|x l].
      * rewrite app_nil_r in E1. subst b. cbn in E2. symmetry in E2. destruct (IH2 [] _ _ E2) as [I|[]].
        apply in_app_or in I. destruct I as [I|I]; [auto|]. right. unfold nodes_of in I. apply in_map_iff in I. destruct I as ([b' j'] & <- & I).
        apply filter_In in I. cbn in I. destruct I as (I & ->). exact I.
      * inversion E2; subst x. apply (IH1 _ _ _ E1).
    + subst b. destruct (IH2 _ _ _ E2) as [I|I]; [|right; apply in_or_app; auto].
        apply in_app_or in I. destruct I as [I|I]; [auto|]. right. apply in_or_app. left. unfold nodes_of in I. apply in_map_iff in I. destruct I as ([b' j'] & <- & I).
        apply filter_In in I. cbn in I. destruct I as (I & ->). exact I.
Qed.
Lemma visit_reach d :
  (forall f vis i o vis', visit d f vis i o vis' -> reachable d i -> forall j, In j (nodes_of (occurrences o)) -> reachable d j) /\
  (forall f vis l os vis', visits d f vis l os vis' -> (forall i, In i l -> reachable d i) -> forall j, In j (nodes_of (flat_map occurrences os)) -> reachable d j).
Proof.
  apply visit_mutual.
  - intros f vis i n I _ R j [].
  - intros f vis i n kids vis' NI E V IH R j K. change (In j (i :: nodes_of (flat_map occurrences kids))) in K. destruct K as [K|K]; [rewrite <- K; exact R|]. apply IH; [|exact K]. intros c Ic. econstructor; eauto.
  - intros f vis R j [].
  - intros f vis i r o os vis1 vis2 V1 IH1 V2 IH2 R j I. cbn [flat_map] in I. rewrite nodes_of_app in I. apply in_app_or in I.
    destruct I as [I|I]; [apply IH1|apply IH2]; auto; [apply R; cbn; auto|intros; apply R; cbn; auto].
Qed.
(* every node the traversal touches, and every child of the nodes it serialises, is serialised in the end *)
Lemma visit_closed d :
  (forall f vis i o vis', visit d f vis i o vis' -> In i vis' /\
     forall j n c, In j (nodes_of (occurrences o)) -> node_at d j = Some n -> In c (children n) -> In c vis') /\
  (forall f vis l os vis', visits d f vis l os vis' -> (forall i, In i l -> In i vis') /\
     forall j n c, In j (nodes_of (flat_map occurrences os)) -> node_at d j = Some n -> In c (children n) -> In c vis').
Proof.
  apply visit_mutual.
  - intros f vis i n I _. split; [exact I|]. intros j m c [].
  - intros f vis i n kids vis' NI E V (IH1 & IH2). destruct (proj2 (visit_order d) _ _ _ _ _ V) as (_ & Ev). split.
    + rewrite Ev. apply in_or_app. left. apply in_or_app. cbn. auto.
    + intros j m c K Ej Ic. change (In j (i :: nodes_of (flat_map occurrences kids))) in K. destruct K as [K|K]; [subst j|eapply IH2; eauto]. rewrite E in Ej. inversion Ej; subst. auto.
  - intros f vis. split; [intros i []|intros j n c []].
  - intros f vis i r o os vis1 vis2 V1 (IHa & IHb) V2 (IHc & IHd). destruct (proj2 (visit_order d) _ _ _ _ _ V2) as (_ & Ev).
    assert (S : forall x, In x vis1 -> In x vis2) by (intros; rewrite Ev; apply in_or_app; auto).
    split; [intros x [->|I]; auto|]. intros j n c I Ej Ic. cbn [flat_map] in I. rewrite nodes_of_app in I. apply in_app_or in I. destruct I; eauto.
Qed.
Lemma visit_root d f o vis : visit d f [] 1 o vis -> serialised_once d o.
Proof.
  intros V. destruct (proj1 (visit_order d) _ _ _ _ _ V) as (_ & Ev). cbn in Ev.
  split; [rewrite <- Ev; exact (proj1 (visit_nodup d) _ _ _ _ _ V (NoDup_nil _))|]. split.
  - intros i. split; [exact (proj1 (visit_reach d) _ _ _ _ _ V (R_root d) i)|].
    destruct (proj1 (visit_closed d) _ _ _ _ _ V) as (R & C). rewrite <- Ev in *. induction 1 as [|i n c RI IH E I]; [exact R|]. eapply C; eauto.
  - intros b i a E. destruct (proj1 (visit_aliases d) _ _ _ _ _ V _ _ _ E) as [[]|H]. exact H.
Qed.

(* counting references *)
Lemma count_app l m i : count_occ Nat.eq_dec (l ++ m) i = (count_occ Nat.eq_dec l i + count_occ Nat.eq_dec m i)%nat.
Proof. apply count_occ_app. Qed.
Lemma count_cons x l i : count_occ Nat.eq_dec (x :: l) i = (count_occ Nat.eq_dec [x] i + count_occ Nat.eq_dec l i)%nat.
Proof. rewrite <- count_app. reflexivity. Qed.
Lemma visit_count d i0 :
  (forall f vis i o vis', visit d f vis i o vis' ->
     count_occ Nat.eq_dec (map snd (occurrences o)) i0 = count_occ Nat.eq_dec (i :: flat_map (children_at d) (nodes_of (occurrences o))) i0) /\
  (forall f vis l os vis', visits d f vis l os vis' ->
     count_occ Nat.eq_dec (map snd (flat_map occurrences os)) i0 = count_occ Nat.eq_dec (l ++ flat_map (children_at d) (nodes_of (flat_map occurrences os))) i0).
Proof.
  apply visit_mutual.
  - reflexivity.
  - intros f vis i n kids vis' NI E V IH. cbn [occurrences map snd]. change (nodes_of ((true, i) :: ?l)) with (i :: nodes_of l).
    cbn [flat_map]. unfold children_at at 1. rewrite E. rewrite (count_cons i), IH, (count_cons i (children n ++ _)). reflexivity.
  - reflexivity.
  - intros f vis i r o os vis1 vis2 V1 IH1 V2 IH2. cbn [flat_map]. rewrite map_app, nodes_of_app, flat_map_app, !count_app, IH1, IH2.
    rewrite (count_cons i r), (count_cons i (flat_map _ _)), !count_app. lia.
Qed.

(* the first pass *)
Definition refs_in (L : list (bool * nat)) (i : nat) : nat := count_occ Nat.eq_dec (map snd L) i.
Record counted (nodes : list node) (an : list anchor_info) (last : nat) (L : list (bool * nat)) : Prop := {
  c_len : length an = length nodes;
  c_info : forall i x, at_index an i = Some x -> ai_refs x = refs_in L i /\ ai_serialized x = false /\
             (ai_anchor x <= last)%nat /\ (ai_anchor x <> 0%nat <-> (1 < refs_in L i)%nat);
  c_inj : forall i j x y, at_index an i = Some x -> at_index an j = Some y -> ai_anchor x = ai_anchor y -> ai_anchor x <> 0%nat -> i = j }.
Lemma at_index_set {A} (l : list A) i x j : (1 <= i <= length l)%nat -> at_index (set_nth (i - 1) x l) j = if (j =? i)%nat then Some x else at_index l j.
Proof.
  intros R. destruct j as [|j]; cbn [at_index]; [destruct i; [lia|reflexivity]|]. destruct i as [|i]; [lia|]. replace (S i - 1)%nat with i by lia.
  destruct (Nat.eqb_spec (S j) (S i)) as [E|E]; [inversion E; apply set_nth_same; lia|apply set_nth_other; congruence].
Qed.
Lemma at_index_some {A} (l : list A) i : (1 <= i <= length l)%nat -> exists x, at_index l i = Some x.
Proof. destruct i as [|i]; [lia|]. intros R. cbn. destruct (nth_error l i) eqn:E; [eauto|]. apply nth_error_None in E. lia. Qed.
Lemma at_index_range {A} (l : list A) i x : at_index l i = Some x -> (1 <= i <= length l)%nat.
Proof. destruct i as [|i]; cbn; [discriminate|]. intros E. assert (i < length l)%nat by (apply nth_error_Some; congruence). lia. Qed.
Lemma node_at_index d i : node_at d i = at_index (d_nodes d) i.
Proof. destruct i; reflexivity. Qed.
Definition with_anchors (s : dumper) (an : list anchor_info) (last : nat) : dumper :=
  mkDumper (dm_opened s) (dm_closed s) an last (dm_log s) (dm_sink s).
Lemma refs_snoc L b i j : refs_in (L ++ [(b, i)]) j = (refs_in L j + if (j =? i)%nat then 1 else 0)%nat.
Proof.
  unfold refs_in. rewrite map_app, count_app. f_equal. cbn [map snd count_occ]. destruct (Nat.eq_dec i j), (Nat.eqb_spec j i); congruence.
Qed.

Lemma anchor_pass d :
  (forall f vis i o vis', visit d f vis i o vis' -> forall s L, counted (d_nodes d) (dm_anchors s) (dm_last s) L -> (forall j, In j vis <-> (1 <= refs_in L j)%nat) ->
     exists an last, anchor_node f (d_nodes d) s i = DOk (with_anchors s an last) /\ counted (d_nodes d) an last (L ++ occurrences o) /\
       (forall j, In j vis' <-> (1 <= refs_in (L ++ occurrences o) j)%nat)) /\
  (forall f vis l os vis', visits d f vis l os vis' -> forall s L, counted (d_nodes d) (dm_anchors s) (dm_last s) L -> (forall j, In j vis <-> (1 <= refs_in L j)%nat) ->
     exists an last, each (anchor_node f (d_nodes d)) l s = DOk (with_anchors s an last) /\ counted (d_nodes d) an last (L ++ flat_map occurrences os) /\
       (forall j, In j vis' <-> (1 <= refs_in (L ++ flat_map occurrences os) j)%nat)).
Proof.
  apply visit_mutual.
  - intros f vis i n I E s L C V. pose proof E as E'. rewrite node_at_index in E'. pose proof (at_index_range _ _ _ E') as R.
    destruct C as [CL CI CJ]. rewrite <- CL in R. destruct (at_index_some _ _ R) as (x & Ex). cbn [anchor_node]. rewrite E', Ex. cbn [ai_refs].
    destruct (CI _ _ Ex) as (X1 & X2 & X3 & X4). apply V in I. rewrite X1.
    destruct (Nat.eqb_spec (S (refs_in L i)) 1) as [Q|_]; [lia|]. cbn [occurrences].
    assert (VV : forall j, In j vis <-> (1 <= refs_in (L ++ [(false, i)]) j)%nat).
    { intros j. rewrite refs_snoc. destruct (Nat.eqb_spec j i) as [->|]; [|rewrite Nat.add_0_r; apply V]. rewrite V. lia. }
    destruct (Nat.eqb_spec (S (refs_in L i)) 2) as [Q|Q].
    + unfold set_last, set_info, with_anchors. cbn [dm_anchors dm_opened dm_closed dm_last dm_log dm_sink ai_anchor ai_serialized].
      do 2 eexists. split; [reflexivity|]. split; [|exact VV]. constructor.
      * rewrite !set_nth_length. exact CL.
      * intros j y. rewrite at_index_set by (rewrite set_nth_length; exact R). rewrite at_index_set by exact R. rewrite refs_snoc.
        destruct (Nat.eqb_spec j i) as [->|N]; intros Y.
        -- inversion Y; subst. cbn. split; [lia|]. split; [exact X2|]. split; [lia|]. lia.
        -- rewrite Nat.add_0_r. destruct (CI _ _ Y) as (? & ? & ? & ?). repeat split; auto; tauto.
      * intros j k y z. rewrite !at_index_set by (rewrite ?set_nth_length; exact R).
        destruct (Nat.eqb_spec j i) as [->|N], (Nat.eqb_spec k i) as [->|M]; intros Y Z A B; auto; [| |eauto].
        -- inversion Y; subst. cbn in A. destruct (CI _ _ Z) as (_ & _ & B1 & _). lia.
        -- inversion Z; subst. cbn in A. destruct (CI _ _ Y) as (_ & _ & B1 & _). lia.
    + unfold set_info, with_anchors. cbn [dm_anchors dm_opened dm_closed dm_last dm_log dm_sink].
      do 2 eexists. split; [reflexivity|]. split; [|exact VV]. constructor.
      * rewrite set_nth_length. exact CL.
      * intros j y. rewrite at_index_set by exact R. rewrite refs_snoc.
        destruct (Nat.eqb_spec j i) as [->|N]; intros Y.
        -- inversion Y; subst. cbn. split; [lia|]. split; [exact X2|]. split; [lia|]. rewrite X4. lia.
        -- rewrite Nat.add_0_r. destruct (CI _ _ Y) as (? & ? & ? & ?). repeat split; auto; tauto.
      * intros j k y z. rewrite !at_index_set by (rewrite ?set_nth_length; exact R).
        destruct (Nat.eqb_spec j i) as [->|N], (Nat.eqb_spec k i) as [->|M]; intros Y Z A B; auto; [| |eauto].
        -- inversion Y; subst. cbn in A, B. eauto.
        -- inversion Z; subst. cbn in A. eauto.
  - intros f vis i n kids vis' NI E VS IH s L C V. pose proof E as E'. rewrite node_at_index in E'. pose proof (at_index_range _ _ _ E') as R.
    pose proof C as [CL CI CJ]. rewrite <- CL in R. destruct (at_index_some _ _ R) as (x & Ex). cbn [anchor_node]. rewrite E', Ex. cbn [ai_refs].
    destruct (CI _ _ Ex) as (X1 & X2 & X3 & X4). rewrite X1. assert (Z : refs_in L i = 0%nat) by (rewrite V in NI; lia).
    rewrite Z. cbn [Nat.eqb]. set (s1 := set_info s i _). cbn [occurrences].
    specialize (IH s1 (L ++ [(true, i)])).
    assert (C1 : counted (d_nodes d) (dm_anchors s1) (dm_last s1) (L ++ [(true, i)])).
    { unfold s1, set_info. cbn [dm_anchors dm_last]. constructor.
      * rewrite set_nth_length. exact CL.
      * intros j y. rewrite at_index_set by exact R. rewrite refs_snoc.
        destruct (Nat.eqb_spec j i) as [->|N]; intros Y.
        -- inversion Y; subst. cbn. split; [lia|]. split; [exact X2|]. split; [lia|]. rewrite X4. lia.
        -- rewrite Nat.add_0_r. destruct (CI _ _ Y) as (? & ? & ? & ?). repeat split; auto; tauto.
      * intros j k y z. rewrite !at_index_set by (rewrite ?set_nth_length; exact R).
        destruct (Nat.eqb_spec j i) as [->|N], (Nat.eqb_spec k i) as [->|M]; intros Y Z' A B; auto; [| |eauto].
        -- inversion Y; subst. cbn in A, B. eauto.
        -- inversion Z'; subst. cbn in A. eauto. }
    destruct (IH C1) as (an & last & EE & CC & VV).
    { intros j. rewrite in_app_iff, refs_snoc, V. cbn. destruct (Nat.eqb_spec j i) as [->|N]; [lia|]. split; [intros [H|[->|[]]]; [lia|congruence]|lia]. }
    exists an, last. rewrite <- app_assoc in CC, VV. cbn [app] in CC, VV. split; [|split; assumption].
    change (with_anchors s an last) with (with_anchors s1 an last).
    unfold children in EE. destruct (n_data n); [|exact EE|exact EE]. cbn in EE. exact EE.
  - intros f vis s L C V. exists (dm_anchors s), (dm_last s). cbn. rewrite app_nil_r. split; [destruct s; reflexivity|auto].
  - intros f vis i r o os vis1 vis2 V1 IH1 V2 IH2 s L C V. destruct (IH1 s L C V) as (an & last & E1 & C1 & W1).
    destruct (IH2 (with_anchors s an last) _ C1 W1) as (an2 & last2 & E2 & C2 & W2). exists an2, last2.
    cbn [each flat_map]. rewrite E1. cbn [dbind]. rewrite app_assoc. auto.
Qed.

(* the second pass *)
Fixpoint push_all (es : list ev) (log : list ev) (sink : list bool) : bool * list ev * list bool :=
  match es with
  | [] => (true, log, sink)
  | e :: r => match sink with
              | false :: k => (false, log, k)
              | true :: k => push_all r (log ++ [e]) k
              | [] => push_all r (log ++ [e]) []
              end
  end.
Lemma push_all_app a : forall b log sink, push_all (a ++ b) log sink =
  match push_all a log sink with (true, l, k) => push_all b l k | x => x end.
Proof. induction a as [|e a IH]; intros b log sink; cbn; [reflexivity|]. destruct sink as [|[|] k]; auto. Qed.

Definition with_log (s : dumper) (an : list anchor_info) (log : list ev) (sink : list bool) : dumper :=
  mkDumper (dm_opened s) (dm_closed s) an (dm_last s) log sink.
(* the anchors after the first pass, with the nodes [vis] serialised *)
Definition name_in (an0 : list anchor_info) (i : nat) : option (list N) :=
  match at_index an0 i with
  | Some x => if (ai_anchor x =? 0)%nat then None else Some (generate_anchor (ai_anchor x))
  | None => None
  end.
Definition serialised (an0 an : list anchor_info) (vis : list nat) : Prop :=
  length an = length an0 /\
  forall i x, at_index an i = Some x -> exists y, at_index an0 i = Some y /\ ai_anchor x = ai_anchor y /\ (ai_serialized x = true <-> In i vis).

Definition pushed (an0 : list anchor_info) (s : dumper) (es : list ev) (vis' : list nat) (r : dres) : Prop :=
  match push_all es (dm_log s) (dm_sink s) with
  | (true, l, k) => exists an, r = DOk (with_log s an l k) /\ serialised an0 an vis'
  | (false, l, k) => exists an, r = DFail (with_log s an l k) /\ length an = length an0
  end.
Lemma pushed_emit an0 s e vis : serialised an0 (dm_anchors s) vis -> pushed an0 s [e] vis (emit s e).
Proof.
  intros S. unfold pushed, emit, with_log. cbn. destruct (dm_sink s) as [|[|] k]; [exists (dm_anchors s)..]; auto. split; [reflexivity|apply S].
Qed.
Lemma pushed_bind an0 s a b v1 v2 r k : pushed an0 s a v1 r -> (forall s', serialised an0 (dm_anchors s') v1 -> pushed an0 s' b v2 (k s')) ->
  pushed an0 s (a ++ b) v2 (dbind r k).
Proof.
  unfold pushed. intros P Q. rewrite push_all_app. destruct (push_all a (dm_log s) (dm_sink s)) as [[[|] l] kk].
  - destruct P as (an & -> & S). cbn [dbind]. specialize (Q (with_log s an l kk) S). cbn [dm_log dm_sink with_log] in Q.
    destruct (push_all b l kk) as [[[|] l'] k']; destruct Q as (an' & -> & Q); exists an'; auto.
  - destruct P as (an & -> & LL). exists an. auto.
Qed.

Lemma iff_true (t u : list N) : str_eqb t u = true <-> t = u.
Proof. destruct (str_eqb_spec t u); subst; split; congruence. Qed.

Lemma dump_pass d an0 :
  (forall f vis i o vis', visit d f vis i o vis' ->
     length an0 = length (d_nodes d) -> (forall b j a, occurrences o = b ++ (false, j) :: a -> name_in an0 j <> None) ->
     exists t, presents d (name_in an0) o t /\
       forall s, serialised an0 (dm_anchors s) vis -> pushed an0 s (events_of t) vis' (dump_node f (d_nodes d) s i)) /\
  (forall f vis l os vis', visits d f vis l os vis' ->
     length an0 = length (d_nodes d) -> (forall b j a, flat_map occurrences os = b ++ (false, j) :: a -> name_in an0 j <> None) ->
     exists ts, Forall2 (presents d (name_in an0)) os ts /\
       forall s, serialised an0 (dm_anchors s) vis -> pushed an0 s (flat_map events_of ts) vis' (each (dump_node f (d_nodes d)) l s)).
Proof.
  apply visit_mutual.
  - intros f vis i n I E LEN AL. specialize (AL [] i [] eq_refl). destruct (name_in an0 i) as [a|] eqn:NM; [|congruence].
    exists (Alias a). split; [constructor; exact NM|]. intros s S. cbn [dump_node events_of].
    rewrite node_at_index in E. pose proof (at_index_range _ _ _ E) as R. pose proof S as (L & H). rewrite <- LEN, <- L in R.
    destruct (at_index_some _ _ R) as (x & Ex). rewrite E, Ex. destruct (H _ _ Ex) as (y & Ey & A & B). rewrite (proj2 B I).
    unfold name_in in NM. rewrite Ey, <- A in NM. rewrite NM. apply pushed_emit. exact S.
  - intros f vis i n kids vis' NI E V IH LEN AL.
    destruct (IH LEN) as (ts & PR & IH'). { intros b j a Q. apply (AL ((true, i) :: b) j a). cbn. rewrite Q. reflexivity. } clear IH.
    pose proof E as E'. rewrite node_at_index in E. pose proof (at_index_range _ _ _ E) as R.
    assert (ST : forall s, serialised an0 (dm_anchors s) vis -> exists x, at_index (dm_anchors s) i = Some x /\ ai_serialized x = false /\
      (if (ai_anchor x =? 0)%nat then None else Some (generate_anchor (ai_anchor x))) = name_in an0 i /\
      serialised an0 (dm_anchors (set_info s i (mkInfo (ai_refs x) (ai_anchor x) true))) (vis ++ [i])).
    { intros s S. pose proof S as (L & H). pose proof R as R'. rewrite <- LEN, <- L in R'. destruct (at_index_some _ _ R') as (x & Ex). exists x. split; [exact Ex|].
      destruct (H _ _ Ex) as (y & Ey & A & B). split; [destruct (ai_serialized x); [destruct NI; apply B; reflexivity|reflexivity]|].
      split; [unfold name_in; rewrite Ey, A; reflexivity|]. unfold set_info. cbn [dm_anchors]. split; [rewrite set_nth_length; exact L|].
      intros j z. rewrite at_index_set by exact R'. destruct (Nat.eqb_spec j i) as [->|N]; intros Z.
      - inversion Z; subst. cbn. exists y. split; [exact Ey|]. split; [exact A|]. rewrite in_app_iff. cbn. tauto.
      - destruct (H _ _ Z) as (w & Ew & Aw & Bw). exists w. split; [exact Ew|]. split; [exact Aw|]. rewrite in_app_iff, Bw. cbn. intuition congruence. }
    destruct (proj2 (visit_order d) _ _ _ _ _ V) as (IDS & Ev).
    unfold children in *. destruct n as [tag data]. cbn [n_data] in *. destruct data as [v st|items st|pairs st].
    + destruct kids; [|discriminate]. inversion PR; subst ts.
      exists (Scalar (name_in an0 i) (Some tag) v (str_eqb tag default_scalar_tag) (str_eqb tag default_scalar_tag) st).
      split; [eapply (P_scalar _ _ _ (mkNode tag (NScalar v st))); eauto; apply iff_true|].
      intros s S. destruct (ST s S) as (x & Ex & X1 & X2 & S1). cbn [dump_node]. rewrite E, Ex, X1, X2. cbn [n_data n_tag events_of].
      change (vis' = (vis ++ [i]) ++ []) in Ev. rewrite app_nil_r in Ev. subst vis'.
      apply (pushed_emit an0 (set_info s i _)). exact S1.
    + exists (Sequence (name_in an0 i) (Some tag) (str_eqb tag default_sequence_tag) st ts).
      split; [eapply (P_sequence _ _ _ (mkNode tag (NSequence items st))); eauto; [cbn; rewrite IDS; reflexivity|apply iff_true]|].
      intros s S. destruct (ST s S) as (x & Ex & X1 & X2 & S1). cbn [dump_node]. rewrite E, Ex, X1, X2. cbn [n_data n_tag events_of].
      apply (pushed_bind an0 (set_info s i (mkInfo (ai_refs x) (ai_anchor x) true)) [_] _ (vis ++ [i])); [apply pushed_emit; exact S1|].
      intros s2 S2. eapply pushed_bind; [apply IH'; exact S2|]. intros s3 S3. apply pushed_emit. exact S3.
    + assert (K : forall (l : list (nat * nat)) kids' us, map occ_id kids' = flat_map (fun p => [fst p; snd p]) l -> Forall2 (presents d (name_in an0)) kids' us ->
         exists ps, us = flat_map (fun p => [fst p; snd p]) ps).
      { induction l as [|p l IHl]; intros kids' us M F.
        - destruct kids'; [|discriminate]. inversion F. exists []. reflexivity.
        - destruct kids' as [|k1 [|k2 kr]]; try discriminate. inversion F as [|? u1 ? ur ? F1]; subst. inversion F1 as [|? u2 ? ur' ? F2]; subst.
          cbn in M. inversion M as [[M1 M2 M3]]. destruct (IHl _ _ M3 F2) as (ps & ->). exists ((u1, u2) :: ps). reflexivity. }
      destruct (K _ _ _ IDS PR) as (ps & ->).
      exists (Mapping (name_in an0 i) (Some tag) (str_eqb tag default_mapping_tag) st ps).
      split; [apply (P_mapping _ _ _ (mkNode tag (NMapping pairs st)) st _ kids ps pairs E' eq_refl (iff_true _ _) (eq_sym IDS) PR)|].
      intros s S. destruct (ST s S) as (x & Ex & X1 & X2 & S1). cbn [dump_node]. rewrite E, Ex, X1, X2. cbn [n_data n_tag events_of].
      apply (pushed_bind an0 (set_info s i (mkInfo (ai_refs x) (ai_anchor x) true)) [_] _ (vis ++ [i])); [apply pushed_emit; exact S1|].
      assert (FM : forall qs : list (tree * tree), flat_map (fun '(k, v) => events_of k ++ events_of v) qs = flat_map events_of (flat_map (fun p => [fst p; snd p]) qs)).
      { induction qs as [|[a b] qs IHq]; cbn; [reflexivity|]. rewrite IHq, <- app_assoc. reflexivity. }
      rewrite FM.
      intros s2 S2. eapply pushed_bind; [apply IH'; exact S2|]. intros s3 S3. apply pushed_emit. exact S3.
  - intros f vis LEN AL. exists []. split; [constructor|]. intros s S. unfold pushed, with_log. cbn. exists (dm_anchors s). split; [destruct s; reflexivity|exact S].
  - intros f vis i r o os vis1 vis2 V1 IH1 V2 IH2 LEN AL. cbn [flat_map] in AL.
    destruct (IH1 LEN) as (t & P1 & Q1). { intros b j a Q. apply (AL b j (a ++ flat_map occurrences os)). rewrite Q, <- app_assoc. reflexivity. }
    destruct (IH2 LEN) as (ts & P2 & Q2). { intros b j a Q. apply (AL (occurrences o ++ b) j a). rewrite Q, <- app_assoc. reflexivity. }
    exists (t :: ts). split; [constructor; auto|]. intros s S. cbn [each flat_map]. eapply pushed_bind; [apply Q1; exact S|exact Q2].
Qed.
