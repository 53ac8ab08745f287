(* The loader at the level of allocated blocks follows LoaderModel.v, loses no
   memory unless the allocator refuses some, and never touches what it does not own. *)
From Coq Require Import Permutation.
From Verif Require Import Base ReaderModel Types ParserModel DocModel LoaderModel HeapModel HeapSpec HeapLemmas HeapEvents HeapDocs HeapLoaderModel.

Definition alias_blocks (a : halias) : list nat := ptr_blocks (fst (fst a)).
Definition aliases_blocks (al : arr halias) : list nat := flat_map alias_blocks (a_els al) ++ ptr_blocks (a_at al).
Definition lh_blocks (s : lh) : list nat := doc_blocks (lh_doc s) ++ aliases_blocks (lh_aliases s) ++ ptr_blocks (a_at (lh_ctx s)).
Definition alias_at (h : heap) (a : halias) : list N * nat * mark := (str_at h (fst (fst a)), snd (fst a), snd a).
Definition lh_at (h : heap) (s : lh) : lstate :=
  mkLstate (map (hnode_at h) (a_els (lh_nodes s))) (map (alias_at h) (a_els (lh_aliases s))) (rev (a_els (lh_ctx s))).
Definition lh_sound (s : lh) : Prop :=
  sound_doc (lh_doc s) /\ a_at (lh_aliases s) <> None /\ a_at (lh_ctx s) <> None /\
  Forall (fun a : halias => fst (fst a) <> None) (a_els (lh_aliases s)).
(* the fields of the document that the composer does not change *)
Definition same_head (d d' : hdoc) : Prop :=
  hd_version d' = hd_version d /\ hd_tags d' = hd_tags d /\ hd_start_implicit d' = hd_start_implicit d.
Lemma same_head_refl d : same_head d d. Proof. repeat split. Qed.
Lemma same_head_trans a b c : same_head a b -> same_head b c -> same_head a c.
Proof. intros (A & B & C) (D & E & F). repeat split; congruence. Qed.
Lemma same_head_nodes d ns : same_head d (with_nodes d ns). Proof. repeat split. Qed.

Lemma aliases_ext h h' l : good h -> ext h h' -> holds h (flat_map alias_blocks l) -> map (alias_at h') l = map (alias_at h) l.
Proof.
  intros G E. induction l as [|x l IH]; intros H; [reflexivity|]. cbn [map]. cbn [flat_map] in H. f_equal.
  - unfold alias_at, alias_blocks in *. f_equal. f_equal. apply str_ext; [exact G|exact E|]. cn.
  - apply IH. cn.
Qed.
Lemma lh_ext h h' s : good h -> ext h h' -> holds h (lh_blocks s) -> lh_at h' s = lh_at h s.
Proof.
  intros G E H. unfold lh_at. unfold lh_blocks, doc_blocks, aliases_blocks in H. f_equal.
  - apply nodes_ext; auto. unfold lh_nodes. cn.
  - apply aliases_ext; auto. cn.
Qed.

Lemma find_alias_ok at_ els anchor h : good h -> (els <> [] -> at_ <> None) -> anchor <> None ->
  Forall (fun a : halias => fst (fst a) <> None) els -> holds h (flat_map alias_blocks els ++ ptr_blocks at_) -> holds h (ptr_blocks anchor) ->
  h_find_alias at_ els anchor h = HOk (find_alias (map (alias_at h) els) (str_at h anchor)) h.
Proof.
  intros G P A. revert P. induction els as [|[[a i] m] els IH]; intros P F H Ha; [reflexivity|]. inversion_clear F as [|? ? Fa F'].
  cbn [h_find_alias map find_alias find]. unfold alias_blocks in H. cbn [flat_map fst snd] in *.
  unfold hbind at 1. rewrite h_touch_ok; [|apply P; congruence|cn].
  unfold hbind at 1. rewrite h_read_ok; [|assumption|cn].
  unfold hbind at 1. rewrite h_read_ok; [|assumption|assumption].
  unfold find_alias. cbn [find]. unfold alias_at at 1. cbn [fst snd]. destruct (str_eqb (str_at h a) (str_at h anchor)); [reflexivity|].
  rewrite IH; [reflexivity|intros _; apply P; congruence|assumption|unfold alias_blocks; cn|assumption].
Qed.

Definition follows (h : heap) (out : lstep) (s s' : lh) (ok : bool) (h' : heap) : Prop :=
  lh_sound s' /\ same_head (lh_doc s) (lh_doc s') /\
  if ok then out = LNext (lh_at h' s') else (exists e, out = LError e) \/ ~ generous h.

Lemma register_does s index m anchor h : good h -> lh_sound s -> holds h (lh_blocks s ++ ptr_blocks anchor) ->
  does (h_register_anchor s index m anchor) h (lh_blocks s ++ ptr_blocks anchor) (fun r g h' =>
    g = lh_blocks (fst r) /\ a_els (lh_nodes (fst r)) = a_els (lh_nodes s) /\ lh_ctx (fst r) = lh_ctx s /\
    follows h (register_anchor (lh_at h s) index m (opt_at h anchor)) s (fst r) (snd r) h').
Proof.
  intros G S H. pose proof (ext_refl h) as X. pose proof S as (Sd & Sa & Sc & Sf). unfold does, h_register_anchor, register_anchor.
  destruct anchor as [b|]; cbn [is_null opt_at].
  2:{ eapply ends_ret; [assumption|assumption| |]. 2:{ cbn [fst snd]. repeat (split; [reflexivity|]). split; [exact S|]. split; [apply same_head_refl|reflexivity]. } cn. }
  assert (H2 : holds h (lh_blocks s)) by cn. assert (H3 : holds h (ptr_blocks (Some b))) by cn.
  assert (Hd : holds h (doc_blocks (lh_doc s))) by (unfold lh_blocks in H2; cn).
  assert (Ha : holds h (aliases_blocks (lh_aliases s))) by (unfold lh_blocks in H2; cn).
  eapply ends_ok; [apply h_touch_ok; [exact (proj1 Sd)|unfold lh_nodes; unfold doc_blocks in Hd; cn]|].
  eapply ends_ok; [apply find_alias_ok; [exact G|intros _; exact Sa|discriminate|exact Sf|exact Ha|exact H3]|].
  cbn [lh_at l_aliases]. cbn [str_at]. destruct (find_alias (map (alias_at h) (a_els (lh_aliases s))) (nth b (texts h) [])) as [[i first]|] eqn:Ef.
  - freeing. eapply ends_ret; [assumption|assumption| |]. 2:{ cbn [fst snd]. repeat (split; [reflexivity|]). split; [exact S|]. split; [apply same_head_refl|left; eexists; reflexivity]. } cn.
  - assert (Hp : holds h (ptr_blocks (a_at (lh_aliases s)))) by (unfold aliases_blocks in Ha; cn).
    call (h_push_does (lh_aliases s) (Some b, index, m) h G Sa Hp). destruct a as [al ok]. cbn [fst snd] in *. destruct Rc as (-> & P & E & Y).
    destruct ok.
    + eapply ends_ret; [assumption|assumption| |]. 2:{ cbn [fst snd lh_doc lh_ctx lh_nodes lh_aliases]. repeat (split; [reflexivity|]).
        split; [|split; [apply same_head_refl|]].
        - split; [exact Sd|]. split; [exact P|]. split; [exact Sc|]. cbn [lh_aliases]. rewrite E. apply Forall_app. split; [exact Sf|]. constructor; [discriminate|constructor].
        - cbn [l_nodes l_aliases l_ctx lh_at]. unfold lh_at. cbn [lh_doc lh_ctx lh_nodes lh_aliases]. rewrite E, map_app. cbn [map]. unfold alias_at at 3. cbn [fst snd str_at]. f_equal. f_equal.
          + symmetry. apply nodes_ext; [exact G|exact Xc|]. unfold doc_blocks, lh_nodes in *. cn.
          + f_equal; [symmetry; apply aliases_ext; [exact G|exact Xc|unfold aliases_blocks in Ha; cn]|].
            do 3 f_equal. symmetry. apply nth_ext; [exact Xc|]. eapply held_below; [exact G|exact H3|left; reflexivity]. }
      unfold lh_blocks, aliases_blocks. cbn [lh_doc lh_aliases lh_ctx]. rewrite E. change (alias_blocks (Some b, index, m)) with [b]. rewrite flat_map_app.
      cbn [flat_map]. change (alias_blocks (Some b, index, m)) with [b]. clear E. cn.
    + subst al. freeing. eapply ends_ret; [assumption|assumption| |]. 2:{ cbn [fst snd lh_doc lh_ctx lh_nodes lh_aliases]. repeat (split; [reflexivity|]).
        split; [exact S|]. split; [apply same_head_refl|right]. intros g. discriminate (Y g). }
      unfold lh_blocks in *. cbn [lh_doc lh_aliases lh_ctx]. cn.
Qed.

Lemma lh_replace s k n n' h h' : good h -> ext h h' -> lh_sound s -> holds h (lh_blocks s) ->
  nth_error (a_els (lh_nodes s)) k = Some n -> sound_node n' ->
  lh_sound (lh_with_nodes s (set_el (lh_nodes s) k n')) /\
  lh_at h' (lh_with_nodes s (set_el (lh_nodes s) k n')) = mkLstate (set_nth k (hnode_at h' n') (l_nodes (lh_at h s))) (l_aliases (lh_at h s)) (l_ctx (lh_at h s)) /\
  forall b, (cnt (lh_blocks (lh_with_nodes s (set_el (lh_nodes s) k n'))) b + cnt (node_blocks n) b = cnt (lh_blocks s) b + cnt (node_blocks n') b)%nat.
Proof.
  intros G X ((S & F & T) & S2 & S3 & S4) H E N'. split; [|split].
  - split; [|split; [exact S2|split; [exact S3|exact S4]]]. split; [exact S|]. split; [|exact T].
    cbn [with_nodes set_el hd_nodes a_els lh_with_nodes lh_doc lh_nodes]. apply set_nth_Forall; assumption.
  - rewrite <- (lh_ext h h' s G X H). unfold lh_at, lh_with_nodes, with_nodes, set_el, lh_nodes.
    cbn [lh_doc lh_aliases lh_ctx hd_nodes a_els l_nodes l_aliases l_ctx]. rewrite set_nth_map. reflexivity.
  - intros b. pose proof (set_nth_blocks _ _ _ n' E b) as W. unfold lh_blocks, doc_blocks, lh_with_nodes, with_nodes, set_el, lh_nodes in *.
    cbn [lh_doc lh_aliases lh_ctx hd_nodes hd_version hd_tags a_els a_at]. rewrite !cnt_app. lia.
Qed.
Lemma node_held s k n h : holds h (lh_blocks s) -> nth_error (a_els (lh_nodes s)) k = Some n -> holds h (node_blocks n).
Proof.
  intros H E b. pose proof (nth_node_blocks _ _ _ E b) as B. specialize (H b). unfold lh_blocks, doc_blocks, lh_nodes in *. rewrite !cnt_app in H. lia.
Qed.
Lemma el_ref_map {A B} (f : A -> B) l i : el_ref (map f l) i = option_map f (el_ref l i).
Proof. destruct i; [reflexivity|apply nth_error_map]. Qed.
Lemma node_ref_el l i : node_ref l i = el_ref l i. Proof. reflexivity. Qed.

Lemma bind_touch {B} p (k : unit -> hm B) h : p <> None -> holds h (ptr_blocks p) -> hbind (h_touch p) k h = k tt h.
Proof. intros P H. unfold hbind. rewrite h_touch_ok by assumption. reflexivity. Qed.

Lemma hnode_seq h t items st : hnode_at h (mkHnode t (HNSequence items st)) = mkNode (str_at h t) (NSequence (a_els items) st). Proof. reflexivity. Qed.
Lemma hnode_map h t pairs st : hnode_at h (mkHnode t (HNMapping pairs st)) = mkNode (str_at h t) (NMapping (a_els pairs) st). Proof. reflexivity. Qed.
Lemma hnode_scalar h t v st : hnode_at h (mkHnode t (HNScalar v st)) = mkNode (str_at h t) (NScalar (str_at h v) st). Proof. reflexivity. Qed.

Lemma bind_ok {A B} (m : hm A) (k : A -> hm B) a h h' : m h = HOk a h' -> hbind m k h = k a h'.
Proof. intros E. unfold hbind. rewrite E. reflexivity. Qed.

Definition stops (r : hres (lh * bool)) (out : lstep) : Prop := (r = HAssert /\ out = LAssertion) \/ (r = HUndef /\ out = LUndefined).

Lemma node_add_does s index h : good h -> lh_sound s -> holds h (lh_blocks s) ->
  stops (h_node_add s index h) (load_node_add (lh_at h s) index) \/
  does (h_node_add s index) h (lh_blocks s) (fun r g h' => g = lh_blocks (fst r) /\
    follows h (load_node_add (lh_at h s) index) s (fst r) (snd r) h').
Proof.
  intros G S H. pose proof (ext_refl h) as X. pose proof S as (Sd & Sa & Sc & Sf). unfold does, h_node_add, load_node_add, stops.
  change (l_ctx (lh_at h s)) with (rev (a_els (lh_ctx s))). change (l_nodes (lh_at h s)) with (map (hnode_at h) (a_els (lh_nodes s))).
  destruct (rev (a_els (lh_ctx s))) as [|parent r] eqn:Er.
  { right. eapply ends_ret; [assumption|assumption| |]. 2:{ cbn [fst snd]. split; [reflexivity|]. split; [exact S|]. split; [apply same_head_refl|reflexivity]. } cn. }
  assert (T1 : forall k : unit -> hm (lh * bool), hbind (h_touch (a_at (lh_ctx s))) k h = k tt h).
  { intros k. apply bind_touch; [exact Sc|]. unfold lh_blocks in H. cn. }
  assert (T2 : forall k : unit -> hm (lh * bool), hbind (h_touch (a_at (lh_nodes s))) k h = k tt h).
  { intros k. apply bind_touch; [exact (proj1 Sd)|]. unfold lh_blocks, doc_blocks, lh_nodes in *. cn. }
  rewrite node_ref_el, el_ref_map. rewrite !T1, !T2. clear T1 T2.
  destruct (el_ref (a_els (lh_nodes s)) parent) as [n|] eqn:En; cbn [option_map].
  2:{ left. right. split; reflexivity. }
  destruct parent as [|k]; [discriminate|]. cbn [el_ref] in En. pose proof (node_held s k n h H En) as Hn.
  pose proof Sd as (_ & F & _). pose proof (proj1 (Forall_forall _ _) F _ (nth_error_In _ _ En)) as Sn.
  assert (Sm : forall h' n', ext h h' -> hn_tag n' = hn_tag n -> str_at h' (hn_tag n') = str_at h (hn_tag n)).
  { intros h' n' X' ->. apply str_ext; [exact G|exact X'|]. unfold node_blocks in Hn. cn. }
  destruct n as [t [v st|items st|pairs st]]; rewrite ?hnode_seq, ?hnode_map, ?hnode_scalar.
  - left. left. split; reflexivity.
  - right. destruct Sn as [Snt Sn]. cbn [hn_data hn_tag] in Sn, Snt. unfold node_blocks in Hn. cbn [hn_tag hn_data] in Hn.
    assert (Hi : holds h (ptr_blocks (a_at items))) by cn.
    call (h_push_does items index h G Sn Hi). destruct a as [items' ok]. cbn [fst snd] in *. destruct Rc as (-> & P & E & Y).
    destruct (lh_replace s k _ (mkHnode t (HNSequence items' st)) h hc G Xc S H En (conj Snt P)) as (S' & V' & B').
    unfold node_blocks in B'. cbn [hn_tag hn_data] in B'. cbn [set_el1].
    eapply ends_ret; [assumption|assumption| |]. 2:{ cbn [fst snd]. split; [reflexivity|]. split; [exact S'|]. split; [apply same_head_nodes|].
      destruct ok; [|right; intros g; discriminate (Y g)]. rewrite V'. cbn [node_set]. rewrite ?hnode_seq, ?hnode_map. rewrite E. pose proof (Sm hc (mkHnode t (HNSequence items' st)) Xc eq_refl) as Et. cbn [hn_tag] in Et. rewrite Et.
      unfold lh_at. cbn [l_nodes l_aliases l_ctx]. rewrite Er. reflexivity. }
    intros b. specialize (B' b). specialize (Cc b). rewrite !cnt_app in B'. lia.
  - right. destruct Sn as [Snt Sn]. cbn [hn_data hn_tag] in Sn, Snt. unfold node_blocks in Hn. cbn [hn_tag hn_data] in Hn.
    assert (Hi : holds h (ptr_blocks (a_at pairs))) by cn. unfold add_to_pairs.
    assert (Push : ends ((' (pairs0, ok) <~ h_push pairs (index, 0%nat);;
       hret (lh_with_nodes s (set_el1 (lh_nodes s) (Datatypes.S k) (mkHnode t (HNMapping pairs0 st))), ok)) h) h (lh_blocks s)
       (fun r g h' => g = lh_blocks (fst r) /\ follows h (LNext (mkLstate
         (node_set (map (hnode_at h) (a_els (lh_nodes s))) (Datatypes.S k) (mkNode (str_at h t) (NMapping (a_els pairs ++ [(index, 0%nat)]) st)))
         (l_aliases (lh_at h s)) (l_ctx (lh_at h s)))) s (fst r) (snd r) h')).
    { call (h_push_does pairs (index, 0%nat) h G Sn Hi). destruct a as [pairs' ok]. cbn [fst snd] in *. destruct Rc as (-> & P & E & Y).
      destruct (lh_replace s k _ (mkHnode t (HNMapping pairs' st)) h hc G Xc S H En (conj Snt P)) as (S' & V' & B').
      unfold node_blocks in B'. cbn [hn_tag hn_data] in B'. cbn [set_el1].
      eapply ends_ret; [assumption|assumption| |]. 2:{ cbn [fst snd]. split; [reflexivity|]. split; [exact S'|]. split; [apply same_head_nodes|].
        destruct ok; [|right; intros g; discriminate (Y g)]. rewrite V'. cbn [node_set]. rewrite ?hnode_seq, ?hnode_map. rewrite E. pose proof (Sm hc (mkHnode t (HNMapping pairs' st)) Xc eq_refl) as Et. cbn [hn_tag] in Et. rewrite Et.
        reflexivity. }
      intros b. specialize (B' b). specialize (Cc b). rewrite !cnt_app in B'. lia. }
    change (rev (a_els (lh_ctx s))) with (l_ctx (lh_at h s)) in Er.
    destruct (rev (a_els pairs)) as [|[[|k'] [|v']] rp] eqn:Erp; rewrite <- Er in *; try exact Push. clear Push.
    step. destruct (lh_replace s k _ (mkHnode t (HNMapping (mkArr (a_at pairs) (rev rp ++ [(Datatypes.S k', index)]) (a_off pairs) (a_cap pairs)) st)) h h G X S H En (conj Snt Sn)) as (S' & V' & B').
    unfold node_blocks in B'. cbn [hn_tag hn_data a_at] in B'. cbn [set_el1].
    eapply ends_ret; [assumption|assumption| |]. 2:{ cbn [fst snd]. split; [reflexivity|]. split; [exact S'|]. split; [apply same_head_nodes|].
      rewrite V'. cbn [node_set]. rewrite hnode_map. cbn [a_els]. reflexivity. }
    intros b. specialize (B' b). rewrite !cnt_app in B'. lia.
Qed.

Lemma choose_tag_does tag default h : good h -> holds h (ptr_blocks tag) ->
  does (h_choose_tag tag default) h (ptr_blocks tag) (fun t g h' => g = ptr_blocks t /\
    (t <> None -> str_at h' t = choose_tag (opt_at h tag) default) /\ (generous h -> t <> None)).
Proof.
  intros G H. pose proof (ext_refl h) as X. unfold does, h_choose_tag, choose_tag.
  assert (M : forall h1, good h1 -> ext h h1 -> changes h (ptr_blocks tag) [] h1 -> ends (h_malloc default h1) h (ptr_blocks tag)
    (fun t g h' => g = ptr_blocks t /\ (t <> None -> str_at h' t = default) /\ (generous h -> t <> None))).
  { intros h1 G1 X1 C1. eapply ends_does; [exact X1|apply h_malloc_does; exact G1| |]; cbn beta.
    - intros t g h2 G2 X2 X3 C2 (-> & R & Y) _. split; [reflexivity|]. split; [|intros g; apply Y, X1, g].
      intros T. destruct R as [->|(b & -> & R)]; [congruence|exact R].
    - intros t g h2 C2 (-> & _). cn. }
  destruct tag as [b|]; cbn [is_null opt_at].
  - assert (E : hbind (h_read (Some b)) (fun s => hret (str_eqb s [33])) h = HOk (str_eqb (nth b (texts h) []) [33]) h).
    { unfold hbind. rewrite h_read_ok; [reflexivity|discriminate|exact H]. }
    eapply ends_ok; [exact E|]. destruct (str_eqb (nth b (texts h) []) [33]).
    + freeing. apply M; assumption.
    + eapply ends_ret; [assumption|assumption| |]. 2:{ split; [reflexivity|]. split; [reflexivity|discriminate]. } cn.
  - eapply ends_ok; [reflexivity|]. freeing. apply M; assumption.
Qed.

(* what a step for one event leaves; [leaked] = blocks nobody owns any more *)
Definition step_result (h : heap) (out : lstep) (s : lh) (r : lh * bool) (g : list nat) (h' : heap) : Prop :=
  exists leaked, g = lh_blocks (fst r) ++ leaked /\ (length leaked <= 1)%nat /\ (generous h \/ snd r = true -> leaked = []) /\
    follows h out s (fst r) (snd r) h'.
Lemma step_result_of h out s r h' : follows h out s (fst r) (snd r) h' -> step_result h out s r (lh_blocks (fst r)) h'.
Proof. intros F. exists []. rewrite app_nil_r. split; [reflexivity|]. split; [cbn; lia|]. auto. Qed.
Lemma step_failed h out s h' : lh_sound s -> (exists e, out = LError e) \/ ~ generous h -> step_result h out s (s, false) (lh_blocks s) h'.
Proof. intros S R. apply (step_result_of h out s (s, false)). split; [exact S|]. split; [apply same_head_refl|exact R]. Qed.

Lemma load_alias_does s anchor h m : good h -> lh_sound s -> anchor <> None -> holds h (lh_blocks s ++ ptr_blocks anchor) ->
  stops (h_load_alias s anchor h) (load_alias (lh_at h s) (str_at h anchor) m) \/
  does (h_load_alias s anchor) h (lh_blocks s ++ ptr_blocks anchor) (step_result h (load_alias (lh_at h s) (str_at h anchor) m) s).
Proof.
  intros G S A H. pose proof (ext_refl h) as X. pose proof S as (Sd & Sa & Sc & Sf). unfold h_load_alias, load_alias.
  assert (H2 : holds h (lh_blocks s)) by cn. assert (H3 : holds h (ptr_blocks anchor)) by cn.
  assert (Ha : holds h (aliases_blocks (lh_aliases s))) by (unfold lh_blocks in H2; cn).
  pose proof (find_alias_ok (a_at (lh_aliases s)) (a_els (lh_aliases s)) anchor h G (fun _ => Sa) A Sf Ha H3) as E.
  unfold does, stops. rewrite (bind_ok _ _ _ _ _ E). cbn [lh_at l_aliases].
  destruct (find_alias (map (alias_at h) (a_els (lh_aliases s))) (str_at h anchor)) as [[i m']|].
  - destruct (h_free_does anchor h G H3) as ([] & g & h1 & E1 & G1 & X1 & C1 & ->).
    assert (H1 : holds h1 (lh_blocks s)) by cn.
    rewrite (bind_ok _ _ _ _ _ E1). fold (lh_at h s). rewrite <- (lh_ext h h1 s G X1 H2).
    destruct (node_add_does s i h1 G1 S H1) as [D|D]; [left; exact D|right].
    eapply ends_does; [exact X1|exact D| |]; cbn beta.
    + intros a g h2 G2 X2 X3 C2 (-> & F) _. apply step_result_of. destruct F as (F1 & F2 & F3). split; [exact F1|]. split; [exact F2|].
      destruct (snd a); [exact F3|]. destruct F3 as [F3|F3]; [left; exact F3|right; intros g; apply F3, X1, g].
    + intros a g h2 C2 (-> & _). cn.
  - right. freeing. eapply ends_ret; [assumption|assumption| |apply step_failed; [exact S|left; eexists; reflexivity]]. cn.
Qed.

Lemma attach_does s index m anchor h : good h -> lh_sound s -> holds h (lh_blocks s ++ ptr_blocks anchor) ->
  let out := lbind (register_anchor (lh_at h s) index m (opt_at h anchor)) (fun s => load_node_add s index) in
  stops (h_attach s index m anchor h) out \/
  does (h_attach s index m anchor) h (lh_blocks s ++ ptr_blocks anchor) (fun r g h' => g = lh_blocks (fst r) /\ follows h out s (fst r) (snd r) h').
Proof.
  intros G S H out. destruct (register_does s index m anchor h G S H) as ([s1 ok] & g & h1 & E1 & G1 & X1 & C1 & -> & _ & _ & S1 & D1 & F1).
  cbn [fst snd] in *. unfold h_attach, does, stops. rewrite (bind_ok _ _ _ _ _ E1). destruct ok; cbn [negb].
  - assert (H1 : holds h1 (lh_blocks s1)) by cn. unfold out. rewrite F1. cbn [lbind].
    destruct (node_add_does s1 index h1 G1 S1 H1) as [D|D]; [left; exact D|right].
    eapply ends_does; [exact X1|exact D| |]; cbn beta.
    + intros a g h2 G2 X2 X3 C2 (-> & F) _. split; [reflexivity|]. destruct F as (A1 & A2 & A3). split; [exact A1|]. split; [eapply same_head_trans; eassumption|].
      destruct (snd a); [exact A3|]. destruct A3 as [A3|A3]; [left; exact A3|right; intros g; apply A3, X1, g].
    + intros a g h2 C2 (-> & _). cn.
  - right. eapply ends_ret; [assumption|assumption|exact C1|]. cbn [fst snd]. split; [reflexivity|]. split; [exact S1|]. split; [exact D1|].
    destruct F1 as [(e & F1)|F1]; [|right; exact F1]. left. exists e. unfold out. rewrite F1. reflexivity.
Qed.

(* the state with one more node *)
Lemma lh_push s ns n h h' : good h -> ext h h' -> lh_sound s -> holds h (lh_blocks s) -> a_at ns <> None -> a_els ns = a_els (lh_nodes s) ++ [n] -> sound_node n ->
  lh_sound (lh_with_nodes s ns) /\ lh_at h' (lh_with_nodes s ns) = push_new (lh_at h s) (hnode_at h' n) /\ same_head (lh_doc s) (lh_doc (lh_with_nodes s ns)) /\
  (forall b, (cnt (lh_blocks (lh_with_nodes s ns)) b + cnt (ptr_blocks (a_at (lh_nodes s))) b =
     cnt (lh_blocks s) b + cnt (ptr_blocks (a_at ns)) b + cnt (node_blocks n) b)%nat).
Proof.
  intros G X ((S & F & T) & S2 & S3 & S4) H P E N. split; [|split; [|split]].
  - split; [|split; [exact S2|split; [exact S3|exact S4]]]. split; [exact P|]. split; [|exact T]. cbn [lh_with_nodes lh_doc with_nodes hd_nodes]. rewrite E. apply Forall_app. split; [exact F|]. auto.
  - rewrite <- (lh_ext h h' s G X H). unfold lh_at, lh_with_nodes, with_nodes, lh_nodes, push_new in *. cbn [lh_doc lh_aliases lh_ctx hd_nodes l_nodes l_aliases l_ctx]. rewrite E, map_app. reflexivity.
  - apply same_head_nodes.
  - intros b. unfold lh_blocks, doc_blocks, lh_with_nodes, with_nodes, lh_nodes in *. cbn [lh_doc lh_aliases lh_ctx hd_nodes hd_version hd_tags]. rewrite E, flat_map_app. cbn [flat_map]. rewrite !cnt_app, cnt_nil. lia.
Qed.
Lemma lh_nodes_held s h : holds h (lh_blocks s) -> holds h (ptr_blocks (a_at (lh_nodes s))).
Proof. intros H. unfold lh_blocks, doc_blocks, lh_nodes in *. cn. Qed.

(* PUSH of the new node and attaching it *)
Definition push_attach (s : lh) (n : hnode) (anchor : ptr) (m : mark) : hm (lh * bool * option nat) :=
  '(ns, ok) <~ h_push (lh_nodes s) n ;;
  if negb ok then hret (s, false, None)
  else '(s, ok) <~ h_attach (lh_with_nodes s ns) (length (a_els ns)) m anchor ;; hret (s, ok, Some (length (a_els ns))).
Lemma push_attach_does s n anchor m h : good h -> lh_sound s -> sound_node n -> holds h (lh_blocks s ++ node_blocks n ++ ptr_blocks anchor) ->
  let out := load_new (lh_at h s) (hnode_at h n) (opt_at h anchor) m in
  (exists r, stops r out /\ push_attach s n anchor m h = match r with HOk _ _ => HUndef | HAssert => HAssert | HUndef => HUndef end) \/
  does (push_attach s n anchor m) h (lh_blocks s ++ node_blocks n ++ ptr_blocks anchor) (fun r g h' =>
    let '(s', ok, pushed) := r in
    match pushed with Some i => i = Datatypes.S (length (l_nodes (lh_at h s))) /\ g = lh_blocks s' /\ follows h out s s' ok h'
    | None => s' = s /\ ok = false /\ g = lh_blocks s ++ node_blocks n ++ ptr_blocks anchor /\ ~ generous h end).
Proof.
  intros G S N H out. pose proof (ext_refl h) as X. pose proof S as ((Sn & _) & _).
  assert (H2 : holds h (lh_blocks s)) by cn. assert (H3 : holds h (node_blocks n)) by cn. assert (H4 : holds h (ptr_blocks anchor)) by cn.
  destruct (h_push_does (lh_nodes s) n h G Sn (lh_nodes_held s h H2)) as ([ns ok] & g & h1 & E1 & G1 & X1 & C1 & -> & P & E & Y). cbn [fst snd] in *.
  unfold push_attach, does. rewrite (bind_ok _ _ _ _ _ E1). destruct ok; cbn [negb].
  2:{ right. subst ns. eapply ends_ret; [assumption|assumption| |]. 2:{ split; [reflexivity|]. split; [reflexivity|]. split; [reflexivity|]. intros g. discriminate (Y g). } cn. }
  destruct (lh_push s ns n h h1 G X1 S H2 P E N) as (S1 & V1 & D1 & B1).
  assert (H1 : holds h1 (lh_blocks (lh_with_nodes s ns) ++ ptr_blocks anchor)).
  { intros b. specialize (B1 b). specialize (C1 b). specialize (H b). rewrite !cnt_app in *. lia. }
  assert (Eout : out = lbind (register_anchor (lh_at h1 (lh_with_nodes s ns)) (length (a_els ns)) m (opt_at h1 anchor)) (fun s => load_node_add s (length (a_els ns)))).
  { unfold out, load_new. rewrite V1. rewrite (node_ext h h1 n G X1 H3), (opt_ext h h1 anchor G X1 H4).
    assert (L : length (l_nodes (push_new (lh_at h s) (hnode_at h n))) = length (a_els ns)).
    { unfold push_new, lh_at. cbn [l_nodes]. rewrite E, !app_length, map_length. reflexivity. }
    rewrite L. reflexivity. }
  rewrite Eout. clear Eout out.
  destruct (attach_does (lh_with_nodes s ns) (length (a_els ns)) m anchor h1 G1 S1 H1) as [D|D].
  - left. eexists. split; [exact D|]. unfold hbind. destruct D as [[D _]|[D _]]; rewrite D; reflexivity.
  - right. destruct D as ([s2 ok] & g & h2 & E2 & G2 & X2 & C2 & -> & A1 & A2 & A3). cbn [fst snd] in *.
    rewrite (bind_ok _ _ _ _ _ E2). eapply ends_ret; [assumption|eapply ext_trans; eassumption| |].
    2:{ split; [unfold lh_at; cbn [l_nodes]; rewrite E, app_length, map_length; cbn [length]; lia|]. split; [reflexivity|]. split; [exact A1|]. split; [exact (same_head_trans _ _ _ D1 A2)|]. destruct ok; [exact A3|].
        destruct A3 as [A3|A3]; [left; exact A3|right; intros g; apply A3, X1, g]. }
    intros b. specialize (B1 b). specialize (C1 b). specialize (C2 b). rewrite !cnt_app in *. lia.
Qed.

Lemma push_attach_use s n anchor m (F : hm (lh * bool)) (K : lh -> bool -> nat -> hm (lh * bool)) h :
  hbind (h_push (lh_nodes s) n) (fun '(ns, ok) => if negb ok then F else
    hbind (h_attach (lh_with_nodes s ns) (length (a_els ns)) m anchor) (fun '(s, ok) => K s ok (length (a_els ns)))) h =
  match push_attach s n anchor m h with
  | HOk (s', ok, Some i) h2 => K s' ok i h2
  | HOk (_, _, None) h2 => F h2
  | HAssert => HAssert
  | HUndef => HUndef
  end.
Proof.
  unfold push_attach, hbind. destruct (h_push (lh_nodes s) n h) as [[ns ok] h1| |]; [|reflexivity|reflexivity].
  destruct ok; cbn [negb]; [|reflexivity]. destruct (h_attach (lh_with_nodes s ns) (length (a_els ns)) m anchor h1) as [[s' ok'] h2| |]; reflexivity.
Qed.

Definition steps (r : hres (lh * bool)) (h : heap) (taken : list nat) (out : lstep) (s : lh) : Prop :=
  stops r out \/ ends r h taken (step_result h out s).
Lemma push_attach_ends s n anchor m F K h0 h1 taken out OUT s0 :
  good h1 -> ext h0 h1 -> lh_sound s -> sound_node n -> holds h1 (lh_blocks s ++ node_blocks n ++ ptr_blocks anchor) ->
  out = load_new (lh_at h1 s) (hnode_at h1 n) (opt_at h1 anchor) m ->
  (forall r, stops r out -> stops r OUT) ->
  (forall h2, good h2 -> ext h1 h2 -> ext h0 h2 -> changes h1 [] [] h2 -> ~ generous h1 -> steps (F h2) h0 taken OUT s0) ->
  (forall s' ok i h2, good h2 -> ext h1 h2 -> ext h0 h2 -> changes h1 (lh_blocks s ++ node_blocks n ++ ptr_blocks anchor) (lh_blocks s') h2 ->
     i = Datatypes.S (length (l_nodes (lh_at h1 s))) -> follows h1 out s s' ok h2 -> steps (K s' ok i h2) h0 taken OUT s0) ->
  steps (hbind (h_push (lh_nodes s) n) (fun '(ns, ok) => if negb ok then F else
    hbind (h_attach (lh_with_nodes s ns) (length (a_els ns)) m anchor) (fun '(s, ok) => K s ok (length (a_els ns)))) h1) h0 taken OUT s0.
Proof.
  intros G X S N H Eo So KF KK. rewrite push_attach_use.
  destruct (push_attach_does s n anchor m h1 G S N H) as [(r & D & E)|D].
  - rewrite E. rewrite <- Eo in D. left. apply So. destruct D as [[-> D]|[-> D]]; [left|right]; auto.
  - destruct D as ([[s' ok] pushed] & g & h2 & -> & G2 & X2 & C2 & D). destruct pushed as [i|].
    + destruct D as (Ei & -> & D). apply KK; auto; [eapply ext_trans; eassumption|]. rewrite Eo. exact D.
    + destruct D as (-> & -> & -> & D). apply KF; auto; [eapply ext_trans; eassumption|]. intros b. specialize (C2 b). rewrite !cnt_nil. lia.
Qed.
Lemma bind_cong {A B} (m : hm A) (k k' : A -> hm B) h : (forall a h', k a h' = k' a h') -> hbind m k h = hbind m k' h.
Proof. intros E. unfold hbind. destruct (m h); [apply E|reflexivity|reflexivity]. Qed.
Lemma bind_ret_pair (m : hm (lh * bool)) h : hbind m (fun '(s, ok) => hret (s, ok)) h = m h.
Proof. unfold hbind. destruct (m h) as [[s ok] h'| |]; reflexivity. Qed.

Lemma follows_mono h h1 out s s' ok h' : ext h h1 -> follows h1 out s s' ok h' -> follows h out s s' ok h'.
Proof.
  intros X (A & B & C). split; [exact A|]. split; [exact B|]. destruct ok; [exact C|]. destruct C as [C|C]; [left; exact C|right; intros g; apply C, X, g].
Qed.

Lemma load_scalar_does s anchor tag value style m h : good h -> lh_sound s -> value <> None ->
  holds h (lh_blocks s ++ ptr_blocks anchor ++ ptr_blocks tag ++ ptr_blocks value) ->
  steps (h_load_scalar s anchor tag value style m h) h (lh_blocks s ++ ptr_blocks anchor ++ ptr_blocks tag ++ ptr_blocks value)
    (load_scalar (lh_at h s) (opt_at h anchor) (opt_at h tag) (str_at h value) style m) s.
Proof.
  intros G S V H. pose proof (ext_refl h) as X. unfold h_load_scalar, load_scalar.
  assert (H0 : holds h (lh_blocks s)) by cn. assert (Ht : holds h (ptr_blocks tag)) by cn. assert (Ha : holds h (ptr_blocks anchor)) by cn. assert (Hv : holds h (ptr_blocks value)) by cn.
  destruct (choose_tag_does tag default_scalar_tag h G Ht) as (t & g & h1 & E1 & G1 & X1 & C1 & -> & T & Y).
  rewrite (bind_ok _ _ _ _ _ E1). destruct t as [b|]; cbn [is_null].
  2:{ right. do 3 freeing. eapply ends_ret; [assumption|assumption| |apply step_failed; [exact S|right; intros g; apply (Y g); reflexivity]]. cn. }
  specialize (T ltac:(discriminate)).
  match goal with |- steps (hbind (h_push _ ?n) (fun '(ns, ok) => if negb ok then ?F else _) h1) _ _ _ _ =>
    pose proof (push_attach_ends s n anchor m F (fun s ok _ => hret (s, ok)) h h1
      (lh_blocks s ++ ptr_blocks anchor ++ ptr_blocks tag ++ ptr_blocks value)
      (load_new (lh_at h s) (mkNode (choose_tag (opt_at h tag) default_scalar_tag) (NScalar (str_at h value) style)) (opt_at h anchor) m)
      (load_new (lh_at h s) (mkNode (choose_tag (opt_at h tag) default_scalar_tag) (NScalar (str_at h value) style)) (opt_at h anchor) m) s) as W end.
  match type of W with ?A1 -> ?A2 -> ?A3 -> ?A4 -> ?A5 -> ?A6 -> ?A7 -> ?A8 -> ?A9 -> ?A10 =>
    assert (R : A10); [apply W; clear W|clear W] end.
  - exact G1.
  - exact X1.
  - exact S.
  - split; [discriminate|exact V].
  - unfold node_blocks. cbn [hn_tag hn_data]. cn.
  - rewrite (lh_ext h h1 s G X1 H0), (opt_ext h h1 anchor G X1 Ha), hnode_scalar, T, (str_ext h h1 value G X1 Hv). reflexivity.
  - auto.
  - intros h2 G2 X2 X3 C2 NG. right. do 3 freeing. eapply ends_ret; [assumption|assumption| |apply step_failed; [exact S|right; intros g; apply NG, X1, g]]. cn.
  - intros s' ok i h2 G2 X2 X3 C2 Ei Fl. right. eapply ends_ret; [assumption|assumption| |apply step_result_of; exact (follows_mono _ _ _ _ _ _ _ X1 Fl)].
    cbn [fst]. unfold node_blocks in C2. cbn [hn_tag hn_data] in C2. cn.
  - cbv beta in R. match type of R with steps ?r _ _ _ _ => match goal with |- steps ?q _ _ _ _ => assert (Eq : r = q); [clear R|rewrite Eq in R; exact R] end end.
    apply bind_cong. intros [ns ok] h2. destruct ok; cbn [negb]; [apply bind_ret_pair|reflexivity].
Qed.

Lemma load_collection_does s s0 anchor t n m h0 h : good h -> ext h0 h -> lh_sound s -> sound_node n -> hn_tag n = t ->
  (exists x, node_blocks n = ptr_blocks t ++ [x]) -> s0 = s ->
  holds h (lh_blocks s ++ node_blocks n ++ ptr_blocks anchor) -> forall taken,
  (forall b, (cnt (live h) b + cnt taken b = cnt (live h0) b + cnt (lh_blocks s ++ node_blocks n ++ ptr_blocks anchor) b)%nat) ->
  steps (h_load_collection s anchor t n m h) h0 taken
    (lbind (load_new (lh_at h s) (hnode_at h n) (opt_at h anchor) m) (fun s' => LNext (push_ctx s' (Datatypes.S (length (l_nodes (lh_at h s))))))) s0.
Proof.
  intros G X S N Et (x & Bn) -> H taken C. unfold h_load_collection.
  apply (push_attach_ends s n anchor m (h_free t ;;; h_free anchor ;;; hret (s, false))
    (fun s ok index => if negb ok then hret (s, false) else
       '(ctx, ok) <~ h_push (lh_ctx s) index ;; hret (mkLh (lh_doc s) (lh_aliases s) ctx, ok))
    h0 h taken (load_new (lh_at h s) (hnode_at h n) (opt_at h anchor) m)); [exact G|exact X|exact S|exact N|exact H|reflexivity| | |].
  - intros r [[-> ->]|[-> ->]]; [left|right]; split; reflexivity.
  - intros h2 G2 X2 X3 C2 NG. right. rewrite Bn in *.
    do 2 freeing. eapply ends_ret; [assumption|assumption| |].
    2:{ exists [x]. cbn [fst snd]. split; [reflexivity|]. split; [cbn; lia|]. split; [|split; [exact S|split; [apply same_head_refl|right; intros g; apply NG, X, g]]].
        intros [g|g]; [exfalso; apply NG, X, g|discriminate]. }
    cn.
  - intros s' ok i h2 G2 X2 X3 C2 Ei (A1 & A2 & A3). destruct ok; cbn [negb].
    2:{ right. eapply ends_ret; [assumption|assumption| |].
        2:{ apply step_result_of. cbn [fst snd]. split; [exact A1|]. split; [exact A2|].
            destruct A3 as [(e & A3)|A3]; [left; exists e; rewrite A3; reflexivity|right; intros g; apply A3, X, g]. }
        clear Bn. cn. }
    right. pose proof A1 as (Sd & Sa & Sc & Sf).
    assert (Hc : holds h2 (ptr_blocks (a_at (lh_ctx s')))). { assert (W : holds h2 (lh_blocks s')) by (clear Bn; cn). unfold lh_blocks in W. clear Bn C2 H C. cn. }
    call (h_push_does (lh_ctx s') i h2 G2 Sc Hc). destruct a as [ctx ok]. cbn [fst snd] in *. destruct Rc as (-> & P & E & Y).
    eapply ends_ret; [assumption|assumption| |].
    2:{ apply step_result_of. cbn [fst snd]. split; [split; [exact Sd|split; [exact Sa|split; [exact P|exact Sf]]]|]. cbn [lh_doc]. split; [exact A2|].
        destruct ok; [|right; intros g; discriminate (Y (proj2 X3 g))]. rewrite A3. cbn [lbind]. unfold push_ctx. rewrite <- Ei.
        unfold lh_at. cbn [lh_doc lh_nodes lh_aliases lh_ctx l_nodes l_aliases l_ctx]. rewrite E, rev_app_distr. cbn [rev app]. f_equal.
        assert (W : holds h2 (lh_blocks s')) by (clear Bn; cn).
        pose proof (lh_ext h2 hc s' G2 Xc W) as V. unfold lh_at in V. apply (f_equal (fun l => mkLstate (l_nodes l) (l_aliases l) (i :: l_ctx l))) in V. cbn [l_nodes l_aliases l_ctx] in V. symmetry. exact V. }
    unfold lh_blocks in *. cbn [fst lh_doc lh_aliases lh_ctx]. clear Bn. cn.
Qed.

Lemma load_sequence_does s anchor tag style m h : good h -> lh_sound s -> holds h (lh_blocks s ++ ptr_blocks anchor ++ ptr_blocks tag) ->
  steps (h_load_sequence s anchor tag style m h) h (lh_blocks s ++ ptr_blocks anchor ++ ptr_blocks tag)
    (load_sequence (lh_at h s) (opt_at h anchor) (opt_at h tag) style m) s.
Proof.
  intros G S H. pose proof (ext_refl h) as X. unfold h_load_sequence, load_sequence.
  assert (H0 : holds h (lh_blocks s)) by cn. assert (Ht : holds h (ptr_blocks tag)) by cn. assert (Ha : holds h (ptr_blocks anchor)) by cn.
  destruct (choose_tag_does tag default_sequence_tag h G Ht) as (t & g & h1 & E1 & G1 & X1 & C1 & -> & T & Y).
  rewrite (bind_ok _ _ _ _ _ E1). destruct t as [b|]; cbn [is_null].
  2:{ right. do 2 freeing. eapply ends_ret; [assumption|assumption| |apply step_failed; [exact S|right; intros g; apply (Y g); reflexivity]]. cn. }
  specialize (T ltac:(discriminate)).
  destruct (@h_init_does nat h1 G1) as ([items ok] & g & h2 & E2 & G2 & X2 & C2 & -> & Ei & Ri & Yi). cbn [fst snd] in *.
  rewrite (bind_ok _ _ _ _ _ E2). pose proof (ext_trans _ _ _ X1 X2) as X3. destruct ok; cbn [negb].
  2:{ subst items. right. do 2 freeing. eapply ends_ret; [assumption|assumption| |apply step_failed; [exact S|right; intros g; discriminate (Yi (proj2 X1 g))]]. cn. }
  destruct (a_at items) as [x|] eqn:Ex; [|congruence].
  assert (W : steps (h_load_collection s anchor (Some b) (mkHnode (Some b) (HNSequence items style)) m h2) h (lh_blocks s ++ ptr_blocks anchor ++ ptr_blocks tag)
    (lbind (load_new (lh_at h2 s) (hnode_at h2 (mkHnode (Some b) (HNSequence items style))) (opt_at h2 anchor) m) (fun s' => LNext (push_ctx s' (Datatypes.S (length (l_nodes (lh_at h2 s))))))) s).
  { assert (Bn : node_blocks (mkHnode (Some b) (HNSequence items style)) = ptr_blocks (Some b) ++ [x]). { unfold node_blocks. cbn [hn_tag hn_data]. rewrite Ex. reflexivity. }
    apply load_collection_does; auto.
    - unfold sound_node. cbn [hn_data hn_tag]. split; congruence.
    - exists x. exact Bn.
    - rewrite Bn. clear Bn. cn.
    - rewrite Bn. clear Bn. cn. }
  rewrite hnode_seq, Ei in W. rewrite (lh_ext h h2 s G X3 H0), (opt_ext h h2 anchor G X3 Ha) in W.
  replace (str_at h2 (Some b)) with (str_at h1 (Some b)) in W; [rewrite T in W; exact W|]. symmetry. apply str_ext; [exact G1|exact X2|]. cn.
Qed.

Lemma load_mapping_does s anchor tag style m h : good h -> lh_sound s -> holds h (lh_blocks s ++ ptr_blocks anchor ++ ptr_blocks tag) ->
  steps (h_load_mapping s anchor tag style m h) h (lh_blocks s ++ ptr_blocks anchor ++ ptr_blocks tag)
    (load_mapping (lh_at h s) (opt_at h anchor) (opt_at h tag) style m) s.
Proof.
  intros G S H. pose proof (ext_refl h) as X. unfold h_load_mapping, load_mapping.
  assert (H0 : holds h (lh_blocks s)) by cn. assert (Ht : holds h (ptr_blocks tag)) by cn. assert (Ha : holds h (ptr_blocks anchor)) by cn.
  destruct (choose_tag_does tag default_mapping_tag h G Ht) as (t & g & h1 & E1 & G1 & X1 & C1 & -> & T & Y).
  rewrite (bind_ok _ _ _ _ _ E1). destruct t as [b|]; cbn [is_null].
  2:{ right. do 2 freeing. eapply ends_ret; [assumption|assumption| |apply step_failed; [exact S|right; intros g; apply (Y g); reflexivity]]. cn. }
  specialize (T ltac:(discriminate)).
  destruct (@h_init_does (nat * nat) h1 G1) as ([items ok] & g & h2 & E2 & G2 & X2 & C2 & -> & Ei & Ri & Yi). cbn [fst snd] in *.
  rewrite (bind_ok _ _ _ _ _ E2). pose proof (ext_trans _ _ _ X1 X2) as X3. destruct ok; cbn [negb].
  2:{ subst items. right. do 2 freeing. eapply ends_ret; [assumption|assumption| |apply step_failed; [exact S|right; intros g; discriminate (Yi (proj2 X1 g))]]. cn. }
  destruct (a_at items) as [x|] eqn:Ex; [|congruence].
  assert (W : steps (h_load_collection s anchor (Some b) (mkHnode (Some b) (HNMapping items style)) m h2) h (lh_blocks s ++ ptr_blocks anchor ++ ptr_blocks tag)
    (lbind (load_new (lh_at h2 s) (hnode_at h2 (mkHnode (Some b) (HNMapping items style))) (opt_at h2 anchor) m) (fun s' => LNext (push_ctx s' (Datatypes.S (length (l_nodes (lh_at h2 s))))))) s).
  { assert (Bn : node_blocks (mkHnode (Some b) (HNMapping items style)) = ptr_blocks (Some b) ++ [x]). { unfold node_blocks. cbn [hn_tag hn_data]. rewrite Ex. reflexivity. }
    apply load_collection_does; auto.
    - unfold sound_node. cbn [hn_data hn_tag]. split; congruence.
    - exists x. exact Bn.
    - rewrite Bn. clear Bn. cn.
    - rewrite Bn. clear Bn. cn. }
  rewrite hnode_map, Ei in W. rewrite (lh_ext h h2 s G X3 H0), (opt_ext h h2 anchor G X3 Ha) in W.
  replace (str_at h2 (Some b)) with (str_at h1 (Some b)) in W; [rewrite T in W; exact W|]. symmetry. apply str_ext; [exact G1|exact X2|]. cn.
Qed.

Lemma load_end_does s is_mapping h : good h -> lh_sound s -> holds h (lh_blocks s) ->
  steps (h_load_end s is_mapping h) h (lh_blocks s) (load_end (lh_at h s) is_mapping) s.
Proof.
  intros G S H. pose proof (ext_refl h) as X. pose proof S as (Sd & Sa & Sc & Sf). unfold h_load_end, load_end.
  change (l_ctx (lh_at h s)) with (rev (a_els (lh_ctx s))). change (l_nodes (lh_at h s)) with (map (hnode_at h) (a_els (lh_nodes s))).
  destruct (rev (a_els (lh_ctx s))) as [|index r] eqn:Er; [left; left; split; reflexivity|].
  rewrite bind_touch; [|exact Sc|unfold lh_blocks in H; cn].
  rewrite bind_touch; [|exact (proj1 Sd)|apply lh_nodes_held; exact H].
  rewrite node_ref_el, el_ref_map. destruct (el_ref (a_els (lh_nodes s)) index) as [n|]; cbn [option_map]; [|left; right; split; reflexivity].
  assert (W : steps (hret (mkLh (lh_doc s) (lh_aliases s) (mkArr (a_at (lh_ctx s)) (rev r) (a_off (lh_ctx s)) (a_cap (lh_ctx s))), true) h) h (lh_blocks s)
    (LNext (mkLstate (map (hnode_at h) (a_els (lh_nodes s))) (l_aliases (lh_at h s)) r)) s).
  { right. eapply ends_ret; [assumption|assumption| |]. 2:{ apply step_result_of. cbn [fst snd]. split; [exact S|]. split; [apply same_head_refl|].
      unfold lh_at. cbn [lh_doc lh_nodes lh_aliases lh_ctx a_els l_aliases]. rewrite rev_involutive. reflexivity. }
    unfold lh_blocks in *. cbn [fst lh_doc lh_aliases lh_ctx a_at]. cn. }
  destruct n as [t [v st|items st|pairs st]]; rewrite ?hnode_seq, ?hnode_map, ?hnode_scalar; cbn [n_data hn_data]; destruct is_mapping;
    first [exact W|left; left; split; reflexivity].
Qed.

Lemma load_event_does s x e h : good h -> lh_sound s -> sound_event (he_ev x) -> event_at h (he_ev x) = Some (e_ev e) -> he_start x = e_start e ->
  holds h (lh_blocks s ++ ev_blocks (he_ev x)) ->
  steps (h_load_event s x h) h (lh_blocks s ++ ev_blocks (he_ev x)) (load_event (lh_at h s) e) s.
Proof.
  intros G S Sx V M H. unfold h_load_event, load_event. rewrite M. destruct (he_ev x); cbn [event_at ev_blocks sound_event] in *; try discriminate; injection V as V; rewrite <- V;
    try (left; left; split; reflexivity).
  - apply load_alias_does; assumption.
  - apply load_scalar_does; assumption.
  - apply load_sequence_does; assumption.
  - rewrite app_nil_r in *. apply load_end_does; assumption.
  - apply load_mapping_does; assumption.
  - rewrite app_nil_r in *. apply load_end_does; assumption.
Qed.
