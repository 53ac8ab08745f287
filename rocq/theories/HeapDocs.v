(* Building and deleting documents. *)
From Coq Require Import Permutation.
From Verif Require Import Base ReaderModel Types DocModel HeapModel HeapSpec HeapLemmas HeapEvents.

Definition sound_node (n : hnode) : Prop :=
  hn_tag n <> None /\
  match hn_data n with HNScalar v _ => v <> None | HNSequence items _ => a_at items <> None | HNMapping pairs _ => a_at pairs <> None end.
Definition sound_doc (d : hdoc) : Prop :=
  a_at (hd_nodes d) <> None /\ Forall sound_node (a_els (hd_nodes d)) /\ sound_tags (hd_tags d).

Lemma node_ext h h' n : good h -> ext h h' -> holds h (node_blocks n) -> hnode_at h' n = hnode_at h n.
Proof.
  intros G E H. unfold hnode_at. unfold node_blocks in H. f_equal; [apply str_ext; auto; cn|].
  destruct (hn_data n); [f_equal; apply str_ext; auto; cn|reflexivity|reflexivity].
Qed.
Lemma nodes_ext h h' l : good h -> ext h h' -> holds h (flat_map node_blocks l) -> map (hnode_at h') l = map (hnode_at h) l.
Proof.
  intros G E. induction l as [|x l IH]; intros H; [reflexivity|]. cbn [map]. cbn [flat_map] in H. f_equal.
  - apply node_ext; [exact G|exact E|]. cn.
  - apply IH. cn.
Qed.
Lemma document_ext h h' d : good h -> ext h h' -> holds h (doc_blocks d) -> document_at h' d = document_at h d.
Proof.
  intros G E H. unfold document_at. unfold doc_blocks in H. f_equal.
  - apply nodes_ext; auto. cn.
  - apply version_ext; auto. cn.
  - apply pairs_ext; auto. cn.
Qed.

Lemma document_initialize_does v ts si ei h : good h ->
  does (h_document_initialize v ts si ei) h [] (fun r g h' =>
    match r with
    | Some d => g = doc_blocks d /\ sound_doc d /\ document_initialize v ts si ei true = Some (document_at h' d)
    | None => g = [] /\ exists alloc, document_initialize v ts si ei alloc = None /\ (generous h -> alloc = true)
    end).
Proof.
  intros G. pose proof (ext_refl h) as X. unfold does, h_document_initialize, document_initialize. unfold h_del.
  call (@h_init_does hnode h G). destruct a as [nodes ok]. cbn [fst snd] in *. destruct Rc as (-> & En & R & Y). destruct ok; cbn [negb].
  2:{ subst nodes. freeing. eapply ends_bind; [eassumption|apply drop_copies_does; [assumption|split; [intros N; exfalso; apply N; reflexivity|apply Forall_nil]|cn]|]. cbn beta. intros _ g h3 G3 X3 X4 C3 ->.
      eapply ends_ret; [assumption|assumption| |split; [reflexivity|]]. { cn. } exists false. rewrite andb_false_r. split; [reflexivity|]. intros g. discriminate (Y g). }
  call (copy_version_does v hc Gc). destruct a as [vp ok]. cbn [fst snd] in *. destruct Rc as (-> & Rv & Yv). destruct ok; cbn [negb].
  2:{ subst vp. freeing. eapply ends_bind; [eassumption|apply drop_copies_does; [assumption|split; [intros N; exfalso; apply N; reflexivity|apply Forall_nil]|cn]|]. cbn beta. intros _ g h3 G3 X3 X4 C3 ->.
      eapply ends_ret; [assumption|assumption| |split; [reflexivity|]]. { cn. } exists false. rewrite andb_false_r. split; [reflexivity|]. intros g. discriminate (Yv (proj2 Xc g)). }
  call (copy_tag_list_does ts hc0 Gc0). destruct a as [[tags value] ok]. destruct Rc as (-> & S & T). destruct ok.
  - destruct T as (-> & U & M). rewrite U. cbn [andb].
    eapply ends_ret; [assumption|assumption| |split; [reflexivity|split]].
    { unfold doc_blocks. cbn [hd_nodes hd_version hd_tags]. rewrite En. cn. }
    + split; [exact R|]. cbn [hd_nodes hd_tags]. rewrite En. split; [constructor|exact S].
    + unfold document_at. cbn [hd_nodes hd_version hd_tags hd_start_implicit hd_end_implicit]. rewrite En, M. cbn [map]. f_equal. f_equal.
      rewrite <- Rv. symmetry. eapply version_ext; [exact Gc0|eassumption|cn].
  - freeing. eapply ends_bind; [eassumption|apply drop_copies_does; [assumption|exact S|cn]|]. cbn beta. intros _ g h3 G3 X3 X4 C3 ->.
    eapply ends_ret; [assumption|assumption| |split; [reflexivity|]]. { cn. }
    destruct T as [T|T].
    + exists false. rewrite andb_false_r. split; [reflexivity|]. intros g. exfalso. apply T. apply Xc2. exact g.
    + exists true. rewrite T. auto.
Qed.

Lemma node_delete_does n h : good h -> holds h (node_blocks n) -> does (node_delete n) h (node_blocks n) (fun _ g _ => g = []).
Proof.
  intros G H. pose proof (ext_refl h) as X. unfold does, node_delete, node_blocks in *. freeing. unfold h_del.
  destruct (hn_data n); (eapply ends_does; [eassumption|apply h_free_does; side| |]; cbn beta; [tauto|]; intros _ g h3 C3 ->; cn).
Qed.
Lemma document_delete_does d h : good h -> sound_arr (hd_nodes d) -> sound_arr (hd_tags d) -> holds h (doc_blocks d) ->
  does (document_delete d) h (doc_blocks d) (fun _ g _ => g = []).
Proof.
  intros G Sn St H. pose proof (ext_refl h) as X. unfold does, document_delete, doc_blocks, h_del, h_for_each in *.
  eapply ends_bind; [eassumption|apply (empty_stack_does node_delete node_blocks); [exact node_delete_does|assumption|exact Sn|cn]|].
  cbn beta. intros _ g h2 G2 X2 _ C ->. freeing. freeing.
  eapply ends_bind; [eassumption|apply (h_pop_all_does free_pair pair_blocks); [exact free_pair_does|assumption|exact St|cn]|].
  cbn beta. intros _ g h3 G3 X3 X4 C3 ->. eapply ends_does; [eassumption|apply h_free_does; side| |]; cbn beta; [tauto|]. intros _ g h4 C4 ->. cn.
Qed.

(* what a call leaves behind, compared with the model of the calls on values *)
Definition call_result (d : hdoc) (op : dop) (h : heap) (r : nat * hdoc) (g : list nat) (h' : heap) : Prop :=
  g = doc_blocks (snd r) /\ sound_doc (snd r) /\
  exists alloc, dstep (document_at h d) op alloc = (DRet (fst r), document_at h' (snd r)) /\ (generous h -> alloc = true).

(* pushing a node that owns [bs] *)
Lemma push_node_ends d n0 (k : arr hnode * bool -> hm (nat * hdoc)) h0 h1 taken Q :
  good h1 -> ext h0 h1 -> sound_doc d -> holds h1 (doc_blocks d) ->
  (forall ns h2, good h2 -> ext h1 h2 -> ext h0 h2 -> changes h1 (ptr_blocks (a_at (hd_nodes d))) (ptr_blocks (a_at ns)) h2 ->
     a_at ns <> None -> a_els ns = a_els (hd_nodes d) ++ [n0] -> ends (k (ns, true) h2) h0 taken Q) ->
  (forall h2, good h2 -> ext h1 h2 -> ext h0 h2 -> changes h1 (ptr_blocks (a_at (hd_nodes d))) (ptr_blocks (a_at (hd_nodes d))) h2 ->
     ~ generous h1 -> ends (k (hd_nodes d, false) h2) h0 taken Q) ->
  ends (hbind (h_push (hd_nodes d) n0) k h1) h0 taken Q.
Proof.
  intros G X (S & _ & _) H K1 K2. unfold doc_blocks in H.
  eapply ends_bind; [exact X|apply h_push_does; [exact G|exact S|cn]|]. cbn beta. intros [ns ok] g h2 G2 X2 X3 C (-> & P & E & Y). cbn [fst snd] in *.
  destruct ok; [apply K1; auto|]. subst ns. apply K2; auto. intros g. discriminate (Y g).
Qed.
Lemma with_nodes_blocks d ns n : a_els ns = a_els (hd_nodes d) ++ [n] ->
  forall b, (cnt (doc_blocks (with_nodes d ns)) b + cnt (ptr_blocks (a_at (hd_nodes d))) b =
    cnt (doc_blocks d) b + cnt (ptr_blocks (a_at ns)) b + cnt (ptr_blocks (hn_tag n)) b +
    cnt (match hn_data n with HNScalar v _ => ptr_blocks v | HNSequence items _ => ptr_blocks (a_at items) | HNMapping pairs _ => ptr_blocks (a_at pairs) end) b)%nat.
Proof.
  intros E b. unfold doc_blocks, with_nodes. cbn [hd_nodes hd_version hd_tags]. rewrite E, flat_map_app, !cnt_app. cbn [flat_map]. rewrite app_nil_r. unfold node_blocks. rewrite cnt_app. lia.
Qed.
Lemma sound_with_nodes d ns n : sound_doc d -> a_at ns <> None -> a_els ns = a_els (hd_nodes d) ++ [n] -> sound_node n -> sound_doc (with_nodes d ns).
Proof.
  intros (S & F & T) P E N. split; [exact P|]. cbn [with_nodes hd_nodes hd_tags]. rewrite E. split; [|exact T]. apply Forall_app. auto.
Qed.
(* the document with one more node *)
Lemma document_at_push d ns n h h' : good h -> ext h h' -> holds h (doc_blocks d) -> a_els ns = a_els (hd_nodes d) ++ [n] ->
  document_at h' (with_nodes d ns) = snd (push_node (document_at h d) (hnode_at h' n) true).
Proof.
  intros G X H E. rewrite <- (document_ext h h' d G X H). unfold document_at, push_node, with_nodes.
  cbn [hd_nodes hd_version hd_tags hd_start_implicit hd_end_implicit snd d_nodes d_version d_tags d_start_implicit d_end_implicit].
  rewrite E, map_app. reflexivity.
Qed.
Lemma push_node_length d ns n h h' : a_els ns = a_els (hd_nodes d) ++ [n] ->
  fst (push_node (document_at h d) (hnode_at h' n) true) = DRet (length (a_els ns)).
Proof.
  intros E. unfold push_node, document_at. cbn [fst d_nodes]. rewrite E, !app_length, map_length. reflexivity.
Qed.
(* failed calls *)
Lemma failed_call d op h h' : good h -> ext h h' -> sound_doc d -> holds h (doc_blocks d) ->
  (exists alloc, dstep (document_at h d) op alloc = (DRet 0, document_at h d) /\ (generous h -> alloc = true)) ->
  call_result d op h (0%nat, d) (doc_blocks d) h'.
Proof.
  intros G X S H (alloc & E & Y). split; [reflexivity|]. split; [exact S|]. exists alloc. cbn [fst snd].
  rewrite (document_ext h h' d G X H). auto.
Qed.

Lemma add_scalar_does d tag v st h : good h -> sound_doc d -> holds h (doc_blocks d) ->
  does (h_add_scalar d tag v st) h (doc_blocks d) (call_result d (AddScalar tag v st) h).
Proof.
  intros G S H. pose proof (ext_refl h) as X. unfold does, h_add_scalar.
  set (t := match tag with Some t => t | None => default_scalar_tag end).
  assert (B : forall alloc, dstep (document_at h d) (AddScalar tag v st) alloc =
    if negb (utf8_good t) then (DRet 0, document_at h d) else if negb (utf8_good v) then (DRet 0, document_at h d)
    else push_node (document_at h d) (mkNode t (NScalar v st)) alloc) by reflexivity.
  destruct (utf8_good t) eqn:Ut; cbn [negb] in *.
  2:{ do 2 freeing. eapply ends_ret; [assumption|assumption| |apply failed_call; auto; exists true; auto]. cn. }
  call (h_malloc_does t h G). destruct Rc as (-> & Rt & Yt). destruct a as [b|]; cbn [is_null].
  2:{ do 2 freeing. eapply ends_ret; [assumption|assumption| |apply failed_call; auto]. { cn. } exists false. rewrite B.
      split; [destruct (utf8_good v); reflexivity|]. intros g. exfalso. apply (Yt g). reflexivity. }
  destruct (utf8_good v) eqn:Uv; cbn [negb] in *.
  2:{ do 2 freeing. eapply ends_ret; [assumption|assumption| |apply failed_call; auto; exists true; auto]. cn. }
  call (h_malloc_does v hc Gc). destruct Rc as (-> & Rv & Yv). destruct a as [c|]; cbn [is_null].
  2:{ do 2 freeing. eapply ends_ret; [assumption|assumption| |apply failed_call; auto]. { cn. } exists false. rewrite B.
      split; [reflexivity|]. intros g. exfalso. apply (Yv (proj2 Xc g)). reflexivity. }
  apply push_node_ends; [assumption|assumption|assumption|cn| |].
  - intros ns h2 G2 X2 X3 C P E. pose proof (with_nodes_blocks d ns _ E) as W. cbn [hn_tag hn_data] in W.
    eapply ends_ret with (g := doc_blocks (with_nodes d ns)); [assumption|assumption|cn|]. split; [reflexivity|].
    split; [eapply sound_with_nodes; eauto; split; discriminate|]. exists true. split; [|auto]. cbn [fst snd]. rewrite B.
    rewrite (document_at_push d ns _ h h2 G X3 H E). rewrite <- (push_node_length d ns _ h h2 E).
    destruct Rt as [Rt|(b' & [= <-] & Rt)]; [discriminate|]. destruct Rv as [Rv|(c' & [= <-] & Rv)]; [discriminate|].
    assert (Hn : hnode_at h2 (mkHnode (Some b) (HNScalar (Some c) st)) = mkNode t (NScalar v st)).
    { unfold hnode_at. cbn [hn_tag hn_data str_at]. f_equal; [|f_equal].
      - rewrite <- Rt. eapply nth_ext; [eapply ext_trans; eassumption|]. eapply (held_below _ [b]); [exact Gc| |left; reflexivity]. cn.
      - rewrite <- Rv. eapply nth_ext; [eassumption|]. eapply (held_below _ [c]); [exact Gc0| |left; reflexivity]. cn. }
    rewrite Hn. destruct (push_node _ _ true); reflexivity.
  - intros h2 G2 X2 X3 C NG. do 2 freeing. eapply ends_ret; [assumption|assumption| |apply failed_call; auto]. { cn. } exists false. rewrite B.
    split; [reflexivity|]. intros g. exfalso. apply NG, Xc2, g.
Qed.
Lemma add_sequence_does d tag st h : good h -> sound_doc d -> holds h (doc_blocks d) ->
  does (h_add_sequence d tag st) h (doc_blocks d) (call_result d (AddSequence tag st) h).
Proof.
  intros G S H. pose proof (ext_refl h) as X. unfold does, h_add_sequence, h_del.
  set (t := match tag with Some t => t | None => default_sequence_tag end).
  assert (B : forall alloc, dstep (document_at h d) (AddSequence tag st) alloc =
    if negb (utf8_good t) then (DRet 0, document_at h d)
    else push_node (document_at h d) (mkNode t (NSequence [] st)) alloc) by reflexivity.
  destruct (utf8_good t) eqn:Ut; cbn [negb] in *.
  2:{ do 2 freeing. eapply ends_ret; [assumption|assumption| |apply failed_call; auto; exists true; auto]. cn. }
  call (h_malloc_does t h G). destruct Rc as (-> & Rt & Yt). destruct a as [b|]; cbn [is_null].
  2:{ do 2 freeing. eapply ends_ret; [assumption|assumption| |apply failed_call; auto]. { cn. } exists false. rewrite B.
      split; [reflexivity|]. intros g. exfalso. apply (Yt g). reflexivity. }
  call (@h_init_does nat hc Gc). destruct a as [items ok]. cbn [fst snd] in *. destruct Rc as (-> & Ei & Ri & Yi). destruct ok; cbn [negb].
  2:{ do 2 freeing. eapply ends_ret; [assumption|assumption| |apply failed_call; auto]. { cn. } exists false. rewrite B.
      split; [reflexivity|]. intros g. discriminate (Yi (proj2 Xc g)). }
  apply push_node_ends; [assumption|assumption|assumption|cn| |].
  - intros ns h2 G2 X2 X3 C P E. pose proof (with_nodes_blocks d ns _ E) as W. cbn [hn_tag hn_data] in W.
    eapply ends_ret with (g := doc_blocks (with_nodes d ns)); [assumption|assumption|cn|]. split; [reflexivity|].
    split; [eapply sound_with_nodes; eauto; split; [discriminate|assumption]|]. exists true. split; [|auto]. cbn [fst snd]. rewrite B.
    rewrite (document_at_push d ns _ h h2 G X3 H E). rewrite <- (push_node_length d ns _ h h2 E).
    destruct Rt as [Rt|(b' & [= <-] & Rt)]; [discriminate|].
    assert (Hn : hnode_at h2 (mkHnode (Some b) (HNSequence items st)) = mkNode t (NSequence [] st)).
    { unfold hnode_at. cbn [hn_tag hn_data str_at]. rewrite Ei. f_equal.
      rewrite <- Rt. eapply nth_ext; [eapply ext_trans; eassumption|]. eapply (held_below _ [b]); [exact Gc| |left; reflexivity]. cn. }
    rewrite Hn. destruct (push_node _ _ true); reflexivity.
  - intros h2 G2 X2 X3 C NG. do 2 freeing. eapply ends_ret; [assumption|assumption| |apply failed_call; auto]. { cn. } exists false. rewrite B.
    split; [reflexivity|]. intros g. exfalso. apply NG, Xc2, g.
Qed.
Lemma add_mapping_does d tag st h : good h -> sound_doc d -> holds h (doc_blocks d) ->
  does (h_add_mapping d tag st) h (doc_blocks d) (call_result d (AddMapping tag st) h).
Proof.
  intros G S H. pose proof (ext_refl h) as X. unfold does, h_add_mapping, h_del.
  set (t := match tag with Some t => t | None => default_mapping_tag end).
  assert (B : forall alloc, dstep (document_at h d) (AddMapping tag st) alloc =
    if negb (utf8_good t) then (DRet 0, document_at h d)
    else push_node (document_at h d) (mkNode t (NMapping [] st)) alloc) by reflexivity.
  destruct (utf8_good t) eqn:Ut; cbn [negb] in *.
  2:{ do 2 freeing. eapply ends_ret; [assumption|assumption| |apply failed_call; auto; exists true; auto]. cn. }
  call (h_malloc_does t h G). destruct Rc as (-> & Rt & Yt). destruct a as [b|]; cbn [is_null].
  2:{ do 2 freeing. eapply ends_ret; [assumption|assumption| |apply failed_call; auto]. { cn. } exists false. rewrite B.
      split; [reflexivity|]. intros g. exfalso. apply (Yt g). reflexivity. }
  call (@h_init_does (nat * nat) hc Gc). destruct a as [items ok]. cbn [fst snd] in *. destruct Rc as (-> & Ei & Ri & Yi). destruct ok; cbn [negb].
  2:{ do 2 freeing. eapply ends_ret; [assumption|assumption| |apply failed_call; auto]. { cn. } exists false. rewrite B.
      split; [reflexivity|]. intros g. discriminate (Yi (proj2 Xc g)). }
  apply push_node_ends; [assumption|assumption|assumption|cn| |].
  - intros ns h2 G2 X2 X3 C P E. pose proof (with_nodes_blocks d ns _ E) as W. cbn [hn_tag hn_data] in W.
    eapply ends_ret with (g := doc_blocks (with_nodes d ns)); [assumption|assumption|cn|]. split; [reflexivity|].
    split; [eapply sound_with_nodes; eauto; split; [discriminate|assumption]|]. exists true. split; [|auto]. cbn [fst snd]. rewrite B.
    rewrite (document_at_push d ns _ h h2 G X3 H E). rewrite <- (push_node_length d ns _ h h2 E).
    destruct Rt as [Rt|(b' & [= <-] & Rt)]; [discriminate|].
    assert (Hn : hnode_at h2 (mkHnode (Some b) (HNMapping items st)) = mkNode t (NMapping [] st)).
    { unfold hnode_at. cbn [hn_tag hn_data str_at]. rewrite Ei. f_equal.
      rewrite <- Rt. eapply nth_ext; [eapply ext_trans; eassumption|]. eapply (held_below _ [b]); [exact Gc| |left; reflexivity]. cn. }
    rewrite Hn. destruct (push_node _ _ true); reflexivity.
  - intros h2 G2 X2 X3 C NG. do 2 freeing. eapply ends_ret; [assumption|assumption| |apply failed_call; auto]. { cn. } exists false. rewrite B.
    split; [reflexivity|]. intros g. exfalso. apply NG, Xc2, g.
Qed.

Lemma set_nth_blocks l k n n' : nth_error l k = Some n ->
  forall b, (cnt (flat_map node_blocks (set_nth k n' l)) b + cnt (node_blocks n) b = cnt (flat_map node_blocks l) b + cnt (node_blocks n') b)%nat.
Proof.
  revert k. induction l as [|x l IH]; intros [|k] E b; try discriminate; cbn [nth_error] in E; cbn [set_nth flat_map]; rewrite !cnt_app.
  - injection E as ->. lia.
  - specialize (IH k E b). lia.
Qed.
Lemma set_nth_map {A B} (f : A -> B) l k x : map f (set_nth k x l) = set_nth k (f x) (map f l).
Proof. revert k. induction l as [|y l IH]; intros [|k]; cbn; f_equal; auto. Qed.
Lemma set_nth_Forall {A} (P : A -> Prop) l k x : Forall P l -> P x -> Forall P (set_nth k x l).
Proof. intros F Px. revert k. induction F; intros [|k]; cbn; constructor; auto. Qed.
Lemma set_nth_same {A} (l : list A) k x : nth_error l k = Some x -> set_nth k x l = l.
Proof. revert k. induction l as [|y l IH]; intros [|k] E; cbn in *; try discriminate; [congruence|f_equal; auto]. Qed.
Lemma nth_node_blocks l k n : nth_error l k = Some n -> forall b, (cnt (node_blocks n) b <= cnt (flat_map node_blocks l) b)%nat.
Proof. intros E b. apply nth_error_split in E. destruct E as (l1 & l2 & -> & _). rewrite flat_map_app. cbn [flat_map]. rewrite !cnt_app. lia. Qed.

Lemma valid_id_at h d i : valid_id (document_at h d) i = h_valid_id d i.
Proof. unfold valid_id, h_valid_id, document_at. cbn [d_nodes]. rewrite map_length. reflexivity. Qed.
Lemma get_node_at h d i : get_node (document_at h d) i =
  if h_valid_id d i then option_map (hnode_at h) (nth_error (a_els (hd_nodes d)) (Z.to_nat (i - 1))) else None.
Proof.
  unfold get_node, h_valid_id, document_at. cbn [d_nodes]. rewrite map_length. rewrite nth_error_map. reflexivity.
Qed.

(* putting a node in the place of another that holds the same tag *)
Lemma replace_node d k n n' h h' i : good h -> ext h h' -> sound_doc d -> holds h (doc_blocks d) -> i = Z.to_nat (k - 1) ->
  nth_error (a_els (hd_nodes d)) i = Some n -> sound_node n' -> hn_tag n' = hn_tag n ->
  sound_doc (with_nodes d (set_el (hd_nodes d) i n')) /\
  document_at h' (with_nodes d (set_el (hd_nodes d) i n')) = set_node (document_at h d) k (hnode_at h' n') /\
  forall b, (cnt (doc_blocks (with_nodes d (set_el (hd_nodes d) i n'))) b + cnt (node_blocks n) b = cnt (doc_blocks d) b + cnt (node_blocks n') b)%nat.
Proof.
  intros G X (S & F & T) H -> E N' ET. split; [|split].
  - split; [exact S|]. split; [|exact T]. cbn [with_nodes set_el hd_nodes a_els]. apply set_nth_Forall; assumption.
  - rewrite <- (document_ext h h' d G X H). unfold document_at, set_node, with_nodes, set_el.
    cbn [hd_nodes hd_version hd_tags hd_start_implicit hd_end_implicit a_els d_nodes d_version d_tags d_start_implicit d_end_implicit].
    rewrite set_nth_map. reflexivity.
  - intros b. pose proof (set_nth_blocks _ _ _ n' E b). unfold doc_blocks, with_nodes, set_el. cbn [hd_nodes hd_version hd_tags a_els a_at].
    rewrite !cnt_app. lia.
Qed.

(* a call that may also stop at an assertion *)
Definition call_or_assert (d : hdoc) (op : dop) (h : heap) : Prop :=
  (h_dstep d op h = HAssert /\ forall alloc, fst (dstep (document_at h d) op alloc) = DAssert) \/
  does (h_dstep d op) h (doc_blocks d) (call_result d op h).

Lemma append_item_does d sq it h : good h -> sound_doc d -> holds h (doc_blocks d) -> call_or_assert d (AppendItem sq it) h.
Proof.
  intros G S H. unfold call_or_assert. cbn [h_dstep dstep]. unfold h_append_item, append_sequence_item.
  rewrite get_node_at. rewrite (valid_id_at h d it).
  destruct (h_valid_id d sq) eqn:Vs. 2:{ left. split; [reflexivity|reflexivity]. }
  destruct (nth_error (a_els (hd_nodes d)) (Z.to_nat (sq - 1))) as [n|] eqn:En.
  2:{ exfalso. apply nth_error_None in En. unfold h_valid_id in Vs. apply andb_true_iff in Vs. destruct Vs as [V1 V2].
      apply Z.ltb_lt in V1. apply Z.leb_le in V2. lia. }
  assert (HT : h_touch (a_at (hd_nodes d)) h = HOk tt h).
  { apply h_touch_ok; [exact (proj1 S)|]. unfold doc_blocks in H. cn. }
  cbn [option_map]. destruct n as [t [v st|items st|pairs st]]; unfold hnode_at; cbn [hn_tag hn_data].
  1,3: left; split; [|reflexivity]; unfold hassert, hbind, hret; rewrite HT; reflexivity.
  destruct (h_valid_id d it) eqn:Vi; cbn [negb].
  2:{ left. split; [|reflexivity]. unfold hassert, hbind, hret. rewrite HT. reflexivity. }
  right. unfold does.
  match goal with |- ends (?m h) _ _ _ =>
    replace (m h) with ((' (items0, ok) <~ h_push items (Z.to_nat it);;
      hret (if ok : bool then 1%nat else 0%nat, with_nodes d (set_el (hd_nodes d) (Z.to_nat (sq - 1)) (mkHnode t (HNSequence items0 st))))) h)
      by (unfold hassert, hbind, hret; rewrite HT; reflexivity) end.
  pose proof (nth_node_blocks _ _ _ En) as Bn. pose proof S as (_ & F & _). pose proof (proj1 (Forall_forall _ _) F _ (nth_error_In _ _ En)) as Sn.
  destruct Sn as [Snt Sn]. cbn [hn_data hn_tag] in Sn, Snt. change (forall b, (cnt (ptr_blocks t ++ ptr_blocks (a_at items)) b <= cnt (flat_map node_blocks (a_els (hd_nodes d))) b)%nat) in Bn.
  assert (Hi : holds h (ptr_blocks (a_at items))). { intros b. specialize (Bn b). specialize (H b). unfold doc_blocks in H. rewrite !cnt_app in H. rewrite !cnt_app in Bn. lia. }
  pose proof (ext_refl h) as X.
  call (h_push_does items (Z.to_nat it) h G Sn Hi). destruct a as [items' ok]. cbn [fst snd] in *. destruct Rc as (-> & P & E & Y).
  destruct (replace_node d sq (mkHnode t (HNSequence items st)) (mkHnode t (HNSequence items' st)) h hc _ G Xc S H eq_refl En (conj Snt P) eq_refl) as (S' & D' & B').
  unfold node_blocks in B'. cbn [hn_tag hn_data] in B'.
  eapply ends_ret with (g := doc_blocks (with_nodes d (set_el (hd_nodes d) (Z.to_nat (sq - 1)) (mkHnode t (HNSequence items' st))))); [assumption|assumption| |].
  { intros b. specialize (B' b). specialize (Cc b). rewrite !cnt_app in B'. cbn [cnt] in *. lia. }
  split; [reflexivity|]. split; [exact S'|]. exists ok. split; [|exact Y]. cbn [fst snd dstep]. unfold append_sequence_item.
  rewrite get_node_at, Vs, En, valid_id_at, Vi. cbn [option_map negb]. unfold hnode_at at 1. cbn [hn_tag hn_data].
  rewrite D'. unfold hnode_at. cbn [hn_tag hn_data].
  assert (Et : str_at hc t = str_at h t). { apply str_ext; [exact G|exact Xc|]. intros b. specialize (Bn b). specialize (H b). unfold doc_blocks in H. rewrite !cnt_app in H. rewrite !cnt_app in Bn. lia. }
  rewrite Et. destruct ok; [rewrite E; reflexivity|]. subst items'. f_equal. unfold set_node. rewrite set_nth_same.
  2:{ unfold document_at. cbn [d_nodes]. rewrite nth_error_map, En. reflexivity. }
  destruct (document_at h d); reflexivity.
Qed.

Lemma append_pair_does d sq ky it h : good h -> sound_doc d -> holds h (doc_blocks d) -> call_or_assert d (AppendPair sq ky it) h.
Proof.
  intros G S H. unfold call_or_assert. cbn [h_dstep dstep]. unfold h_append_pair, append_mapping_pair.
  rewrite get_node_at. rewrite (valid_id_at h d it), (valid_id_at h d ky).
  destruct (h_valid_id d sq) eqn:Vs. 2:{ left. split; [reflexivity|reflexivity]. }
  destruct (nth_error (a_els (hd_nodes d)) (Z.to_nat (sq - 1))) as [n|] eqn:En.
  2:{ exfalso. apply nth_error_None in En. unfold h_valid_id in Vs. apply andb_true_iff in Vs. destruct Vs as [V1 V2].
      apply Z.ltb_lt in V1. apply Z.leb_le in V2. lia. }
  assert (HT : h_touch (a_at (hd_nodes d)) h = HOk tt h).
  { apply h_touch_ok; [exact (proj1 S)|]. unfold doc_blocks in H. cn. }
  cbn [option_map]. destruct n as [t [v st|pairs st|items st]]; unfold hnode_at; cbn [hn_tag hn_data].
  1,2: left; split; [|reflexivity]; unfold hassert, hbind, hret; rewrite HT; reflexivity.
  destruct (h_valid_id d ky) eqn:Vk; destruct (h_valid_id d it) eqn:Vi; cbn [negb andb].
  2,3,4: left; split; [|reflexivity]; unfold hassert, hbind, hret; rewrite HT; reflexivity.
  right. unfold does.
  match goal with |- ends (?m h) _ _ _ =>
    replace (m h) with ((' (items0, ok) <~ h_push items (Z.to_nat ky, Z.to_nat it);;
      hret (if ok : bool then 1%nat else 0%nat, with_nodes d (set_el (hd_nodes d) (Z.to_nat (sq - 1)) (mkHnode t (HNMapping items0 st))))) h)
      by (unfold hassert, hbind, hret; rewrite HT; reflexivity) end.
  pose proof (nth_node_blocks _ _ _ En) as Bn. pose proof S as (_ & F & _). pose proof (proj1 (Forall_forall _ _) F _ (nth_error_In _ _ En)) as Sn.
  destruct Sn as [Snt Sn]. cbn [hn_data hn_tag] in Sn, Snt. change (forall b, (cnt (ptr_blocks t ++ ptr_blocks (a_at items)) b <= cnt (flat_map node_blocks (a_els (hd_nodes d))) b)%nat) in Bn.
  assert (Hi : holds h (ptr_blocks (a_at items))). { intros b. specialize (Bn b). specialize (H b). unfold doc_blocks in H. rewrite !cnt_app in H. rewrite !cnt_app in Bn. lia. }
  pose proof (ext_refl h) as X.
  call (h_push_does items (Z.to_nat ky, Z.to_nat it) h G Sn Hi). destruct a as [items' ok]. cbn [fst snd] in *. destruct Rc as (-> & P & E & Y).
  destruct (replace_node d sq (mkHnode t (HNMapping items st)) (mkHnode t (HNMapping items' st)) h hc _ G Xc S H eq_refl En (conj Snt P) eq_refl) as (S' & D' & B').
  unfold node_blocks in B'. cbn [hn_tag hn_data] in B'.
  eapply ends_ret with (g := doc_blocks (with_nodes d (set_el (hd_nodes d) (Z.to_nat (sq - 1)) (mkHnode t (HNMapping items' st))))); [assumption|assumption| |].
  { intros b. specialize (B' b). specialize (Cc b). rewrite !cnt_app in B'. cbn [cnt] in *. lia. }
  split; [reflexivity|]. split; [exact S'|]. exists ok. split; [|exact Y]. cbn [fst snd dstep]. unfold append_mapping_pair.
  rewrite get_node_at, Vs, En, !valid_id_at, Vi, Vk. cbn [option_map negb andb]. unfold hnode_at at 1. cbn [hn_tag hn_data].
  rewrite D'. unfold hnode_at. cbn [hn_tag hn_data].
  assert (Et : str_at hc t = str_at h t). { apply str_ext; [exact G|exact Xc|]. intros b. specialize (Bn b). specialize (H b). unfold doc_blocks in H. rewrite !cnt_app in H. rewrite !cnt_app in Bn. lia. }
  rewrite Et. destruct ok; [rewrite E; reflexivity|]. subst items'. f_equal. unfold set_node. rewrite set_nth_same.
  2:{ unfold document_at. cbn [d_nodes]. rewrite nth_error_map, En. reflexivity. }
  destruct (document_at h d); reflexivity.
Qed.

Lemma dstep_does d op h : good h -> sound_doc d -> holds h (doc_blocks d) -> call_or_assert d op h.
Proof.
  intros G S H. destruct op.
  - right. apply add_scalar_does; auto.
  - right. apply add_sequence_does; auto.
  - right. apply add_mapping_does; auto.
  - apply append_item_does; auto.
  - apply append_pair_does; auto.
Qed.

Definition run_result (d : hdoc) (ops : list dop) (h : heap) (r : list nat * hdoc) (g : list nat) (h' : heap) : Prop :=
  g = doc_blocks (snd r) /\ sound_doc (snd r) /\
  exists allocs, length allocs = length ops /\ drun (document_at h d) (combine ops allocs) = (map DRet (fst r), document_at h' (snd r)) /\
    (generous h -> Forall (eq true) allocs).
Lemma drun_does ops : forall d h, good h -> sound_doc d -> holds h (doc_blocks d) ->
  (h_drun d ops h = HAssert /\ exists allocs rs, length allocs = length ops /\ fst (drun (document_at h d) (combine ops allocs)) = rs ++ [DAssert]) \/
  does (h_drun d ops) h (doc_blocks d) (run_result d ops h).
Proof.
  induction ops as [|op ops IH]; intros d h G S H; pose proof (ext_refl h) as X.
  - right. unfold does. cbn [h_drun]. eapply ends_ret; [assumption|assumption| |]. 2:{ split; [reflexivity|]. split; [exact S|]. exists []. split; [reflexivity|]. split; [reflexivity|constructor]. } cn.
  - cbn [h_drun]. destruct (dstep_does d op h G S H) as [[A B]|D].
    + left. unfold hbind. rewrite A. split; [reflexivity|]. exists (repeat true (Datatypes.S (length ops))), [].
      split; [apply repeat_length|]. cbn [repeat combine drun]. specialize (B true). destruct (dstep (document_at h d) op true) as [r d'].
      cbn [fst] in B. subst r. reflexivity.
    + destruct D as ([r d'] & g & h1 & E & G1 & X1 & C1 & -> & S1 & alloc & E1 & Y1). cbn [fst snd] in *.
      assert (H1 : holds h1 (doc_blocks d')) by cn.
      destruct (IH d' h1 G1 S1 H1) as [(A & allocs & rs & L & B)|D].
      * left. unfold hbind. rewrite E, A. split; [reflexivity|]. exists (alloc :: allocs), (DRet r :: rs).
        split; [cbn; lia|]. cbn [combine drun]. rewrite E1. destruct (drun (document_at h1 d') (combine ops allocs)) as [rs' d2]. cbn [fst app] in *. f_equal. exact B.
      * right. destruct D as ([rs d2] & g & h2 & E2 & G2 & X2 & C2 & -> & S2 & allocs & L & B & Y2). cbn [fst snd] in *.
        exists (r :: rs, d2), (doc_blocks d2), h2. unfold hbind. rewrite E, E2.
        split; [reflexivity|]. split; [exact G2|]. split; [eapply ext_trans; eassumption|]. split; [clear IH; cn|].
        split; [reflexivity|]. split; [exact S2|]. exists (alloc :: allocs). split; [cbn; lia|]. cbn [combine drun fst snd map]. rewrite E1, B.
        split; [reflexivity|]. intros g. constructor; [symmetry; apply Y1; exact g|]. apply Y2, X1, g.
Qed.

Lemma changes_perm h taken given h' : changes h taken given h' -> taken = [] -> Permutation (live h') (given ++ live h).
Proof. intros C ->. apply (Permutation_count_occ Nat.eq_dec). intros b. specialize (C b). rewrite cnt_nil in C. unfold cnt in C. rewrite count_occ_app. lia. Qed.

Theorem document_history h v ts si ei ops : good h ->
  match h_document_initialize v ts si ei h with
  | HOk None h' => Permutation (live h') (live h) /\
      (generous h -> exists t, In t ts /\ (utf8_good (fst t) = false \/ utf8_good (snd t) = false))
  | HOk (Some d) h1 =>
      Permutation (live h1) (doc_blocks d ++ live h) /\
      document_at h1 d = mkDoc [] v ts si ei /\
      match h_drun d ops h1 with
      | HOk (rs, d') h2 =>
          Permutation (live h2) (doc_blocks d' ++ live h) /\
          (exists allocs, length allocs = length ops /\
             drun (mkDoc [] v ts si ei) (combine ops allocs) = (map DRet rs, document_at h2 d') /\
             (generous h -> Forall (eq true) allocs)) /\
          exists h3, document_delete d' h2 = HOk tt h3 /\ Permutation (live h3) (live h)
      | HAssert => exists allocs rs, length allocs = length ops /\ fst (drun (mkDoc [] v ts si ei) (combine ops allocs)) = rs ++ [DAssert]
      | HUndef => False
      end
  | HAssert | HUndef => False
  end.
Proof.
  intros G. destruct (document_initialize_does v ts si ei h G) as (r & g & h1 & -> & G1 & X1 & C1 & R). destruct r as [d|].
  2:{ destruct R as (-> & alloc & E & Y). split; [exact (changes_perm _ _ _ _ C1 eq_refl)|]. intros g. specialize (Y g). subst alloc.
      unfold document_initialize in E. rewrite andb_true_r in E. match type of E with (if ?c then _ else _) = _ => destruct c eqn:F end; [discriminate|].
      clear E. revert F. clear. induction ts as [|t ts IH]; intros F; [discriminate|]. cbn [forallb] in F. apply andb_false_iff in F. destruct F as [F|F].
      - exists t. split; [left; reflexivity|]. apply andb_false_iff in F. exact F.
      - destruct (IH F) as (u & I & W). exists u. split; [right; exact I|exact W]. }
  destruct R as (-> & S1 & E1). split; [exact (changes_perm _ _ _ _ C1 eq_refl)|].
  assert (D1 : document_at h1 d = mkDoc [] v ts si ei).
  { unfold document_initialize in E1. match type of E1 with (if ?c then _ else _) = _ => destruct c end; [exact (eq_sym (f_equal (fun o => match o with Some x => x | None => document_at h1 d end) E1))|discriminate]. }
  split; [exact D1|].
  assert (H1 : holds h1 (doc_blocks d)) by cn.
  destruct (drun_does ops d h1 G1 S1 H1) as [(A & B)|D].
  - rewrite A. rewrite <- D1. exact B.
  - destruct D as ([rs d'] & g & h2 & -> & G2 & X2 & C2 & -> & S2 & allocs & L & B & Y). cbn [fst snd] in *.
    split; [|split].
    + apply (changes_perm h [] (doc_blocks d') h2); [|reflexivity]. cn.
    + exists allocs. rewrite <- D1. split; [exact L|]. split; [exact B|]. intros g. apply Y, X1, g.
    + destruct S2 as (Sn & Sf & St).
      destruct (document_delete_does d' h2 G2 (fun _ => Sn) (proj1 St)) as ([] & g & h3 & E3 & G3 & X3 & C3 & ->); [cn|].
      exists h3. split; [exact E3|]. apply (changes_perm h [] [] h3); [|reflexivity]. cn.
Qed.
