(* Lemmas behind C32-C34. *)
From Verif Require Import Base ReaderModel Types TreeSpec DocModel DocSpec DocProofs ParserModel ParserSpec LoaderModel LoaderSpec LoaderFinal DumperModel DumperSpec DumperProofs.

(* anchors *)
Definition value (ds : list N) : N := fold_left (fun a d => a * 10 + (d - 48)) ds 0.
Lemma value_pad ds k : value (repeat 48 k ++ ds) = value ds.
Proof. unfold value. rewrite fold_left_app. f_equal. induction k; cbn; auto. Qed.
Lemma fold_value a ds : fold_left (fun a d => a * 10 + (d - 48)) ds a = a * 10 ^ N.of_nat (length ds) + value ds.
Proof.
  unfold value. revert a. induction ds as [|x ds IH]; intros a; [cbn; lia|]. cbn [fold_left length]. rewrite IH, (IH (0 * 10 + _)).
  rewrite Nat2N.inj_succ, N.pow_succ_r'. lia.
Qed.
Lemma dec_value fuel : forall n acc, n < 2 ^ N.of_nat fuel -> value (dec fuel n acc) = n * 10 ^ N.of_nat (length acc) + value acc.
Proof.
  induction fuel as [|f IH]; intros n acc L.
  - cbn in L. assert (n = 0) by lia. subst. cbn. reflexivity.
  - cbn [dec]. pose proof (N.div_mod n 10 ltac:(lia)) as D. pose proof (N.mod_lt n 10 ltac:(lia)) as M.
    assert (V : value ((48 + n mod 10) :: acc) = (n mod 10) * 10 ^ N.of_nat (length acc) + value acc).
    { unfold value at 1. cbn [fold_left]. rewrite fold_value. f_equal. f_equal. lia. }
    destruct (N.eqb_spec (n / 10) 0) as [Z|Z].
    + rewrite V. rewrite Z in D. replace n with (n mod 10) at 2 by lia. reflexivity.
    + rewrite IH.
      * rewrite V. cbn [length]. rewrite Nat2N.inj_succ, N.pow_succ_r'. rewrite D at 3. lia.
      * rewrite Nat2N.inj_succ, N.pow_succ_r' in L. apply N.div_lt_upper_bound; lia.
Qed.
Lemma decimal_value n : value (decimal n) = n.
Proof.
  unfold decimal. rewrite dec_value; [cbn; lia|]. rewrite Nat2N.inj_succ, N2Nat.id. destruct (N.eq_dec n 0) as [->|]; [reflexivity|].
  apply N.log2_spec. lia.
Qed.
Lemma generate_inj i j : generate_anchor i = generate_anchor j -> i = j.
Proof.
  unfold generate_anchor, pad3. intros E. inversion E as [E1]. apply (f_equal value) in E1. rewrite !value_pad, !decimal_value in E1. lia.
Qed.
Lemma dec_length fuel : forall n acc k, n < 10 ^ N.of_nat k -> (0 < k)%nat -> (length (dec fuel n acc) <= length acc + k)%nat.
Proof.
  induction fuel as [|f IH]; intros n acc k L K; [cbn; lia|]. cbn [dec]. destruct (N.eqb_spec (n / 10) 0) as [Z|Z]; [cbn; lia|].
  destruct k as [|k]; [lia|]. rewrite Nat2N.inj_succ, N.pow_succ_r' in L.
  assert (L' : n / 10 < 10 ^ N.of_nat k) by (apply N.div_lt_upper_bound; lia).
  destruct k as [|k]; [cbn in L'; lia|]. etransitivity; [apply (IH _ _ (S k)); [exact L'|lia]|]. cbn [length]. lia.
Qed.
Lemma generate_length i : (N.of_nat i < 2 ^ 31)%N -> (length (generate_anchor i) < 16)%nat.
Proof.
  intros L. unfold generate_anchor, pad3, decimal. set (ds := dec _ _ _).
  assert (length ds <= 0 + 10)%nat by (apply dec_length; [|lia]; eapply N.lt_trans; [exact L|reflexivity]).
  rewrite app_length, app_length, repeat_length. cbn [length]. lia.
Qed.

(* one dump *)
Lemma name_in_ok d f o vis an last : visit d f [] 1 o vis -> counted (d_nodes d) an last (occurrences o) ->
  anchors_ok d (nodes_of (occurrences o)) (name_in an).
Proof.
  intros V [CL CI CJ]. pose proof (visit_root _ _ _ _ V) as (_ & RE & _).
  assert (CNT : forall i, refs_in (occurrences o) i = references d (nodes_of (occurrences o)) i).
  { intros i. unfold refs_in, references. apply (proj1 (visit_count d i) _ _ _ _ _ V). }
  split.
  - intros i R. rewrite <- CNT. unfold name_in. destruct (at_index an i) as [x|] eqn:E.
    + destruct (CI _ _ E) as (_ & _ & _ & B). rewrite <- B. destruct (Nat.eqb_spec (ai_anchor x) 0); split; congruence.
    + exfalso. apply RE in R. clear -R E V CL.
      assert (K : (forall f vis i o vis', visit d f vis i o vis' -> forall j, In j (nodes_of (occurrences o)) -> exists n, node_at d j = Some n) /\
                  (forall f vis l os vis', visits d f vis l os vis' -> forall j, In j (nodes_of (flat_map occurrences os)) -> exists n, node_at d j = Some n)).
      { apply visit_mutual; try (intros; contradiction).
        - intros f0 vis0 i0 n kids vis' NI E0 VS IH j K. change (In j (i0 :: nodes_of (flat_map occurrences kids))) in K. destruct K as [<-|K]; eauto.
        - intros f0 vis0 i0 r o0 os v1 v2 V1 IH1 V2 IH2 j K. cbn [flat_map] in K. rewrite nodes_of_app in K. apply in_app_or in K. destruct K; auto. }
      destruct (proj1 K _ _ _ _ _ V _ R) as (n & N). rewrite node_at_index in N. apply at_index_range in N. rewrite <- CL in N.
      destruct (at_index_some _ _ N) as (x & X). congruence.
  - intros i j a A B. unfold name_in in A, B.
    destruct (at_index an i) as [x|] eqn:E; [|discriminate]. destruct (at_index an j) as [y|] eqn:F; [|discriminate].
    destruct (Nat.eqb_spec (ai_anchor x) 0); [discriminate|]. destruct (Nat.eqb_spec (ai_anchor y) 0); [discriminate|].
    apply (CJ _ _ _ _ E F); [|assumption]. apply generate_inj. congruence.
Qed.

(* [dump] on one document whose ids are all valid *)
Definition ends (s : dumper) (es : list ev) (opened closed : bool) (r : dres) : Prop :=
  match push_all es (dm_log s) (dm_sink s) with
  | (true, l, k) => r = DOk (mkDumper opened closed [] 0 l k)
  | (false, l, k) => exists op cl, r = DFail (mkDumper op cl [] 0 l k)
  end.

Lemma push_cases e l k : match push_all [e] l k with
  | (true, l', k') => emit (mkDumper true true [] 0 l k) e = DOk (mkDumper true true [] 0 l' k')
  | (false, l', k') => True end.
Proof. cbn. unfold emit. destruct k as [|[|] k]; reflexivity || exact I. Qed.

Lemma emit_push s e : match push_all [e] (dm_log s) (dm_sink s) with
  | (true, l, k) => emit s e = DOk (with_log s (dm_anchors s) l k)
  | (false, l, k) => emit s e = DFail (with_log s (dm_anchors s) l k) end.
Proof. cbn. unfold emit, with_log. destruct (dm_sink s) as [|[|] k]; reflexivity. Qed.

Definition fresh_dumper (s : dumper) : Prop := dm_anchors s = [] /\ dm_last s = 0%nat.

Lemma counted0 d : counted (d_nodes d) (map (fun _ => mkInfo 0 0 false) (d_nodes d)) 0 [].
Proof.
  assert (K : forall i x, at_index (map (fun _ : node => mkInfo 0 0 false) (d_nodes d)) i = Some x -> x = mkInfo 0 0 false).
  { intros [|i] x; cbn; [discriminate|]. rewrite nth_error_map. destruct (nth_error _ _); cbn; congruence. }
  constructor.
  - apply map_length.
  - intros i x E. rewrite (K _ _ E). cbn. repeat split; auto; lia.
  - intros i j x y E F _ N. rewrite (K _ _ E) in N. cbn in N. congruence.
Qed.
Lemma alias_count o b j a : (forall b j a, occurrences o = b ++ (false, j) :: a -> In (true, j) b) -> occurrences o = b ++ (false, j) :: a -> (1 < refs_in (occurrences o) j)%nat.
Proof.
  intros H E. specialize (H _ _ _ E). rewrite E. unfold refs_in. rewrite map_app, count_app. cbn [map snd].
  rewrite count_cons. assert (count_occ Nat.eq_dec [j] j = 1%nat) by (cbn [count_occ]; destruct (Nat.eq_dec j j); congruence).
  assert (count_occ Nat.eq_dec (map snd b) j > 0)%nat; [|lia]. apply count_occ_In. apply (in_map snd _ _ H).
Qed.

Lemma dump_one fuel s d : (length (d_nodes d) < fuel)%nat -> closed d -> fresh_dumper s -> d_nodes d <> [] ->
  exists dt, dumped d dt /\ ends s (opening (dm_opened s) ++ doc_events dt) true (dm_closed s) (dump fuel s d).
Proof.
  intros L C (FA & FL) NE.
  destruct (d_nodes d) as [|n0 r0] eqn:ND; [congruence|]. rewrite <- ND in *.
  assert (E1 : node_at d 1 = Some n0) by (cbn; rewrite ND; reflexivity).
  destruct (visit_exists d C fuel [] 1 n0) as (o & vis & V); [pose proof (unvisited_le d); lia|exact E1|].
  destruct (proj1 (visit_order d) _ _ _ _ _ V) as (OID & OV). cbn in OV.
  pose proof (visit_root _ _ _ _ V) as SO. pose proof SO as (_ & _ & AL).
  assert (PASS : exists an last, counted (d_nodes d) an last (occurrences o) /\ forall s1, dm_anchors s1 = map (fun _ => mkInfo 0 0 false) (d_nodes d) -> dm_last s1 = 0%nat ->
     anchor_node fuel (d_nodes d) s1 1 = DOk (with_anchors s1 an last)).
  { destruct (proj1 (anchor_pass d) _ _ _ _ _ V (mkDumper true false (map (fun _ => mkInfo 0 0 false) (d_nodes d)) 0 [] []) []) as (an & last & EA & CA & _).
    - apply counted0.
    - intros j. cbn. split; [intros []|lia].
    - exists an, last. split; [exact CA|]. intros s1 A1 A2.
      destruct (proj1 (anchor_pass d) _ _ _ _ _ V s1 []) as (an' & last' & EA' & CA' & _).
      + rewrite A1, A2. apply counted0.
      + intros j. cbn. split; [intros []|lia].
      + rewrite EA'. assert (G : forall f i l1 l2 k1 k2 o1 o2 c1 c2 an0 la, 
          match anchor_node f (d_nodes d) (mkDumper o1 c1 an0 la l1 k1) i, anchor_node f (d_nodes d) (mkDumper o2 c2 an0 la l2 k2) i with
          | DOk a, DOk b => dm_anchors a = dm_anchors b /\ dm_last a = dm_last b /\ a = mkDumper o1 c1 (dm_anchors a) (dm_last a) l1 k1 /\ b = mkDumper o2 c2 (dm_anchors b) (dm_last b) l2 k2
          | DOk _, _ | _, DOk _ => False | _, _ => True end).
        { clear. induction f as [|f IH]; intros; [exact I|]. cbn [anchor_node dm_anchors].
          destruct (at_index (d_nodes d) i) as [n|]; [|exact I]. destruct (at_index an0 i) as [x|]; [|exact I]. unfold set_info. cbn [dm_anchors dm_last dm_opened dm_closed dm_log dm_sink].
          assert (EA : forall l an1 la1, match each (anchor_node f (d_nodes d)) l (mkDumper o1 c1 an1 la1 l1 k1), each (anchor_node f (d_nodes d)) l (mkDumper o2 c2 an1 la1 l2 k2) with
          | DOk a, DOk b => dm_anchors a = dm_anchors b /\ dm_last a = dm_last b /\ a = mkDumper o1 c1 (dm_anchors a) (dm_last a) l1 k1 /\ b = mkDumper o2 c2 (dm_anchors b) (dm_last b) l2 k2
          | DOk _, _ | _, DOk _ => False | _, _ => True end).
          { induction l as [|c l IHl]; intros an1 la1; cbn [each]; [repeat split; reflexivity|].
            specialize (IH c l1 l2 k1 k2 o1 o2 c1 c2 an1 la1).
            destruct (anchor_node f (d_nodes d) (mkDumper o1 c1 an1 la1 l1 k1) c) as [a|a| | |], (anchor_node f (d_nodes d) (mkDumper o2 c2 an1 la1 l2 k2) c) as [b|b| | |]; cbn [dbind]; try exact IH; try contradiction.
            destruct IH as (A & B & EA & EB). rewrite EA, EB, <- A, <- B. apply IHl. }
          cbn [ai_refs]. destruct (S (ai_refs x) =? 1)%nat; [destruct (n_data n); [repeat split; reflexivity|apply EA|apply EA]|].
          destruct (S (ai_refs x) =? 2)%nat; repeat split; reflexivity. }
        specialize (G fuel 1%nat (dm_log s1) [] (dm_sink s1) [] (dm_opened s1) true (dm_closed s1) false (dm_anchors s1) (dm_last s1)).
        rewrite A1, A2, EA in G. replace (mkDumper (dm_opened s1) (dm_closed s1) _ 0 (dm_log s1) (dm_sink s1)) with s1 in G by (rewrite <- A1, <- A2; destruct s1; reflexivity).
        rewrite EA' in G. cbn in G. destruct G as (<- & <- & _). reflexivity. }
  destruct PASS as (an & last & CA & AN).
  destruct (proj1 (dump_pass d an) _ _ _ _ _ V) as (t & PR & DP).
  { exact (c_len _ _ _ _ CA). }
  { intros b j a E. pose proof (alias_count _ _ _ _ AL E) as K. unfold name_in. destruct (at_index an j) as [x|] eqn:EX.
    - destruct (c_info _ _ _ _ CA _ _ EX) as (_ & _ & _ & B). apply B in K. destruct (Nat.eqb_spec (ai_anchor x) 0); [congruence|discriminate].
    - exfalso. pose proof (AL _ _ _ E) as T. destruct SO as (_ & RE & _).
      assert (R : reachable d j). { apply RE. unfold nodes_of. apply in_map_iff. exists (true, j). split; [reflexivity|]. apply filter_In. split; [|reflexivity]. rewrite E. apply in_or_app. auto. }
      assert (exists n, node_at d j = Some n) as (n & N) by (inversion R; subst; [eauto|eapply C; eauto]).
      rewrite node_at_index in N. apply at_index_range in N. rewrite <- (c_len _ _ _ _ CA) in N. destruct (at_index_some _ _ N) as (x & X). congruence. }
  exists (mkDocTree (d_version d) (d_tags d) (d_start_implicit d) t (d_end_implicit d)). split.
  { repeat (split; [reflexivity|]). exists o, (name_in an). split; [exact OID|]. split; [exact PR|]. split; [exact SO|]. eapply name_in_ok; eauto. }
  (* running *)
  assert (CL : forall op cl l k a la, an = a -> cleanup (mkDumper op cl a la l k) = mkDumper op cl [] 0 l k).
  { intros op cl l k a la ->. unfold cleanup. cbn. pose proof (c_len _ _ _ _ CA) as K. rewrite ND in K. destruct a; [discriminate|reflexivity]. }
  assert (CL2 : forall op cl l k a la, length a = length (d_nodes d) -> cleanup (mkDumper op cl a la l k) = mkDumper op cl [] 0 l k).
  { intros op cl l k a la K. unfold cleanup. cbn. rewrite ND in K. destruct a; [discriminate|reflexivity]. }
  assert (BODY : forall s1, dm_opened s1 = true -> dm_closed s1 = dm_closed s -> fresh_dumper s1 ->
    ends s1 (doc_events (mkDocTree (d_version d) (d_tags d) (d_start_implicit d) t (d_end_implicit d))) true (dm_closed s)
      (finish (let s := set_anchors s1 (map (fun _ => mkInfo 0 0 false) (d_nodes d)) in
        dbind (emit s (EDocStart (d_version d) (d_tags d) (d_start_implicit d))) (fun s =>
        dbind (anchor_node fuel (d_nodes d) s 1) (fun s =>
        dbind (dump_node fuel (d_nodes d) s 1) (fun s =>
        emit s (EDocEnd (d_end_implicit d)))))))).
  { intros s1 O1 C1 (F1 & F2). set (s2 := set_anchors s1 _). cbn zeta.
    pose proof (emit_push s2 (EDocStart (d_version d) (d_tags d) (d_start_implicit d))) as X1.
    unfold ends, doc_events. cbn [dt_version dt_tags dt_start_implicit dt_root dt_end_implicit].
    change (EDocStart (d_version d) (d_tags d) (d_start_implicit d) :: events_of t ++ [EDocEnd (d_end_implicit d)])
      with ([EDocStart (d_version d) (d_tags d) (d_start_implicit d)] ++ events_of t ++ [EDocEnd (d_end_implicit d)]).
    rewrite push_all_app. change (dm_log s2) with (dm_log s1) in X1. change (dm_sink s2) with (dm_sink s1) in X1.
    destruct (push_all [EDocStart (d_version d) (d_tags d) (d_start_implicit d)] (dm_log s1) (dm_sink s1)) as [[[|] l1] k1]; rewrite X1; cbn [dbind finish].
    2: { do 2 eexists. unfold with_log. rewrite CL2; [reflexivity|]. unfold s2, set_anchors. cbn. apply map_length. }
    rewrite AN; [|reflexivity|exact F2]. cbn [dbind]. set (s3 := with_anchors _ an last).
    assert (S3 : serialised an (dm_anchors s3) []).
    { split; [reflexivity|]. intros i x E. exists x. split; [exact E|]. split; [reflexivity|]. destruct (c_info _ _ _ _ CA _ _ E) as (_ & -> & _). split; [discriminate|intros []]. }
    specialize (DP s3 S3). pose proof (pushed_bind an s3 _ [EDocEnd (d_end_implicit d)] _ vis _ (fun s => emit s (EDocEnd (d_end_implicit d))) DP (fun s' S' => pushed_emit _ _ _ _ S')) as P.
    unfold pushed in P. change (dm_log s3) with l1 in P. change (dm_sink s3) with k1 in P.
    destruct (push_all (events_of t ++ [EDocEnd (d_end_implicit d)]) l1 k1) as [[[|] l2] k2].
    - destruct P as (an2 & -> & (SL & _)). cbn [finish]. unfold with_log. rewrite CL2 by (rewrite SL; exact (c_len _ _ _ _ CA)).
      unfold s3, s2, with_anchors, set_anchors, with_log. cbn. rewrite O1, C1. reflexivity.
    - destruct P as (an2 & -> & SL). cbn [finish]. do 2 eexists. unfold with_log. rewrite CL2 by (rewrite SL; exact (c_len _ _ _ _ CA)). reflexivity. }
  unfold dump. rewrite ND. rewrite <- ND. unfold dump_open. destruct (dm_opened s) eqn:OP.
  - cbn [opening app dbind]. apply BODY; auto. split; auto.
  - pose proof (emit_push s (EStreamStart AnyEnc)) as X0. unfold ends, opening. rewrite push_all_app.
    destruct (push_all [EStreamStart AnyEnc] (dm_log s) (dm_sink s)) as [[[|] l0] k0]; rewrite X0; cbn [dbind].
    + set (s1 := mkDumper true _ _ _ _ _). specialize (BODY s1 eq_refl eq_refl (conj FA FL)). exact BODY.
    + cbn [finish]. do 2 eexists. unfold with_log, cleanup. cbn. rewrite FA. rewrite FL. reflexivity.
Qed.

Lemma dump_empty fuel s d : fresh_dumper s -> d_nodes d = [] ->
  ends s (opening (dm_opened s) ++ (if dm_closed s then [] else [EStreamEnd])) true true (dump fuel s d).
Proof.
  intros (FA & FL) ND. unfold dump, ends. rewrite ND, push_all_app. unfold dump_open. destruct (dm_opened s) eqn:OP.
  - cbn [opening push_all app dbind]. unfold dump_close. rewrite OP. cbn [negb]. destruct (dm_closed s) eqn:CE.
    + cbn. unfold cleanup. rewrite FA. destruct s; cbn in *; subst. reflexivity.
    + pose proof (emit_push s EStreamEnd) as X. destruct (push_all [EStreamEnd] (dm_log s) (dm_sink s)) as [[[|] l0] k0]; rewrite X; cbn; rewrite FA; unfold with_log; cbn; rewrite ?FL, ?OP; eauto.
  - pose proof (emit_push s (EStreamStart AnyEnc)) as X. cbn [opening].
    destruct (push_all [EStreamStart AnyEnc] (dm_log s) (dm_sink s)) as [[[|] l0] k0]; rewrite X; cbn [dbind].
    + unfold with_log. cbn [dm_closed dm_anchors dm_last dm_log dm_sink]. unfold dump_close. cbn [dm_opened negb dm_closed]. destruct (dm_closed s) eqn:CE.
      * cbn. rewrite FA, FL. reflexivity.
      * set (s1 := mkDumper true _ _ _ _ _). pose proof (emit_push s1 EStreamEnd) as Y. change (dm_log s1) with l0 in Y. change (dm_sink s1) with k0 in Y.
        destruct (push_all [EStreamEnd] l0 k0) as [[[|] l1] k1]; rewrite Y; cbn; rewrite FA; unfold with_log; cbn; rewrite ?FL; eauto.
    + cbn. unfold cleanup, with_log. cbn. rewrite FA, FL. eauto.
Qed.

(** histories *)
Lemma push_all_log es : forall log sink, match push_all es log sink with
  | (true, l, k) => l = log ++ es
  | (false, l, k) => exists done, is_prefix done es /\ l = log ++ done end.
Proof.
  induction es as [|e es IH]; intros log sink; cbn [push_all]; [rewrite app_nil_r; reflexivity|].
  assert (K : forall k, match push_all es (log ++ [e]) k with
    | (true, l, k) => l = log ++ e :: es
    | (false, l, k) => exists done, is_prefix done (e :: es) /\ l = log ++ done end).
  { intros k. specialize (IH (log ++ [e]) k). destruct (push_all es (log ++ [e]) k) as [[[|] l] k'].
    - rewrite IH, <- app_assoc. reflexivity.
    - destruct IH as (dn & (c & ->) & ->). exists (e :: dn). split; [exists c; reflexivity|]. rewrite <- app_assoc. reflexivity. }
  destruct sink as [|[|] k]; [apply K|apply K|]. exists []. split; [exists (e :: es); reflexivity|]. rewrite app_nil_r. reflexivity.
Qed.
Lemma ends_cases s es op cl r : ends s es op cl r ->
  match r with
  | DOk s' => dm_log s' = dm_log s ++ es /\ dm_opened s' = op /\ dm_closed s' = cl /\ fresh_dumper s'
  | DFail s' => (exists done, is_prefix done es /\ dm_log s' = dm_log s ++ done) /\ fresh_dumper s'
  | _ => False end.
Proof.
  unfold ends. pose proof (push_all_log es (dm_log s) (dm_sink s)) as P. destruct (push_all es (dm_log s) (dm_sink s)) as [[[|] l] k].
  - intros ->. cbn. unfold fresh_dumper. auto.
  - intros (a & b & ->). cbn. unfold fresh_dumper. auto.
Qed.
Lemma calls_fresh fuel sink ds s : dump_calls fuel (init_dumper sink) ds s -> fresh_dumper s.
Proof.
  induction 1 as [|ds s d s' H IH C L R]; [split; reflexivity|].
  destruct (d_nodes d) eqn:ND.
  - pose proof (ends_cases _ _ _ _ _ (dump_empty fuel s d IH ND)) as K. destruct R as [R|R]; rewrite R in K; apply K.
  - rewrite <- ND in L. destruct (dump_one fuel s d L C IH ltac:(congruence)) as (dt & _ & E). apply ends_cases in E. destruct R as [R|R]; rewrite R in E; apply E.
Qed.
Lemma dump_node_cases fuel sink ds s d : dump_calls fuel (init_dumper sink) ds s -> closed d -> (length (d_nodes d) < fuel)%nat -> d_nodes d <> [] ->
  exists dt, dumped d dt /\
    match dump fuel s d with
    | DOk s' => dm_log s' = dm_log s ++ opening (dm_opened s) ++ doc_events dt
    | DFail s' => exists done, is_prefix done (opening (dm_opened s) ++ doc_events dt) /\ dm_log s' = dm_log s ++ done
    | _ => False end.
Proof.
  intros H C L N. destruct (dump_one fuel s d L C (calls_fresh _ _ _ _ H) N) as (dt & D & E). exists dt. split; [exact D|].
  apply ends_cases in E. destruct (dump fuel s d); tauto.
Qed.
Lemma dump_empty_cases fuel sink ds s d : dump_calls fuel (init_dumper sink) ds s -> d_nodes d = [] ->
  let es := opening (dm_opened s) ++ if dm_closed s then [] else [EStreamEnd] in
  match dump fuel s d with
  | DOk s' => dm_log s' = dm_log s ++ es /\ dm_closed s' = true
  | DFail s' => exists done, is_prefix done es /\ dm_log s' = dm_log s ++ done
  | _ => False end.
Proof.
  intros H N. pose proof (ends_cases _ _ _ _ _ (dump_empty fuel s d (calls_fresh _ _ _ _ H) N)) as K.
  cbn zeta. destruct (dump fuel s d); tauto.
Qed.
Lemma dumps_calls fuel s0 ds s : dumps fuel s0 ds s -> dump_calls fuel s0 ds s.
Proof. induction 1; econstructor; eauto. Qed.
Lemma dumps_stream fuel sink ds s : dumps fuel (init_dumper sink) ds s -> Forall (fun d => d_nodes d <> []) ds ->
  (ds = [] /\ s = init_dumper sink) \/ exists ts, dm_log s = EStreamStart AnyEnc :: flat_map doc_events ts /\ Forall2 dumped ds ts /\ dm_opened s = true /\ dm_closed s = false.
Proof.
  induction 1 as [|ds s d s' H IH C L R]; intros F; [left; auto|]. right. apply Forall_app in F. destruct F as (F1 & F2). inversion F2; subst.
  destruct (dump_one fuel s d L C (calls_fresh _ _ _ _ (dumps_calls _ _ _ _ H)) ltac:(assumption)) as (dt & D & E). apply ends_cases in E. rewrite R in E.
  destruct E as (EL & EO & EC & _). destruct (IH F1) as [(-> & ->)|(ts & LG & F & O & CC)].
  - exists [dt]. cbn in EL, EC. cbn [flat_map]. rewrite app_nil_r. split; [exact EL|]. split; [constructor; [exact D|constructor]|]. auto.
  - exists (ts ++ [dt]). rewrite EL, LG, O. cbn. rewrite flat_map_app. cbn [flat_map]. rewrite app_nil_r. split; [reflexivity|].
    split; [apply Forall2_app; [exact F|constructor; [exact D|constructor]]|]. rewrite EC, CC. auto.
Qed.
Lemma dumps_whole fuel sink ds s d s' : dumps fuel (init_dumper sink) ds s -> Forall (fun d => d_nodes d <> []) ds -> d_nodes d = [] -> dump fuel s d = DOk s' ->
  exists ts, dm_log s' = stream_events (mkStreamTree AnyEnc ts) /\ Forall2 dumped ds ts.
Proof.
  intros H F N R. pose proof (dump_empty_cases fuel sink ds s d (dumps_calls _ _ _ _ H) N) as K. cbn zeta in K. rewrite R in K. destruct K as (K & _).
  destruct (dumps_stream _ _ _ _ H F) as [(-> & ->)|(ts & LG & FF & O & CC)].
  - exists []. split; [exact K|constructor].
  - exists ts. rewrite O, CC, LG in K. split; [exact K|exact FF].
Qed.

(** C34 *)
Fixpoint scoped (known : list (list N)) (es : list ev) : Prop :=
  match es with
  | [] => True
  | e :: r => (forall a, e = EAlias a -> In a known) /\ (forall a, anchor_of e = Some a -> ~ In a known) /\ scoped (known ++ declared [e]) r
  end.
Lemma scoped_app a : forall known b, scoped known (a ++ b) <-> scoped known a /\ scoped (known ++ declared a) b.
Proof.
  induction a as [|e a IH]; intros known b; cbn [app scoped]; [cbn; rewrite app_nil_r; tauto|].
  rewrite IH. replace ((known ++ declared [e]) ++ declared a) with (known ++ declared (e :: a)); [tauto|].
  rewrite <- app_assoc. f_equal. cbn. rewrite app_nil_r. reflexivity.
Qed.
Lemma scoped_well es : scoped [] es -> well_scoped es.
Proof.
  intros S before e after pr E C. subst es. apply scoped_app in S. destruct S as (_ & S). cbn in S. destruct S as (S1 & S2 & _).
  inversion C as [a H|e' a H H0]; subst; [exact (H (S1 a eq_refl))|exact (S2 a H H0)].
Qed.
Definition anames (name : nat -> option (list N)) (l : list nat) : list (list N) := flat_map (fun j => match name j with Some a => [a] | None => [] end) l.
Lemma anames_app name a b : anames name (a ++ b) = anames name a ++ anames name b.
Proof. apply flat_map_app. Qed.
Lemma in_anames name l a : In a (anames name l) <-> exists j, In j l /\ name j = Some a.
Proof.
  unfold anames. rewrite in_flat_map. split; intros (j & I & H); exists j; (split; [exact I|]); destruct (name j); cbn in *; intuition congruence.
Qed.
Lemma declared_app a b : declared (a ++ b) = declared a ++ declared b.
Proof. apply flat_map_app. Qed.
Definition alias_ok (vis : list nat) (l : list (bool * nat)) : Prop := forall b j a, l = b ++ (false, j) :: a -> In j (vis ++ nodes_of b).
Lemma alias_ok_app vis l m : alias_ok vis (l ++ m) -> alias_ok vis l /\ alias_ok (vis ++ nodes_of l) m.
Proof.
  intros A. split; intros b j a E.
  - apply (A b j (a ++ m)). rewrite E, <- app_assoc. reflexivity.
  - rewrite <- app_assoc, <- nodes_of_app. apply (A (l ++ b) j a). rewrite E, app_assoc. reflexivity.
Qed.
Lemma alias_ok_cons vis i m : alias_ok vis ((true, i) :: m) -> alias_ok (vis ++ [i]) m.
Proof. intros A. exact (proj2 (alias_ok_app vis [(true, i)] m A)). Qed.

Lemma tree_scoped d name : (forall i j a, name i = Some a -> name j = Some a -> i = j) -> forall t o vis, presents d name o t -> NoDup (vis ++ nodes_of (occurrences o)) -> alias_ok vis (occurrences o) ->
  scoped (anames name vis) (events_of t) /\ declared (events_of t) = anames name (nodes_of (occurrences o)).
Proof.
  intros INJ.
  assert (FR : forall vis i l a, NoDup (vis ++ i :: l) -> name i = Some a -> ~ In a (anames name vis)).
  { intros vis i l a ND NM I. apply in_anames in I. destruct I as (j & J & NJ). rewrite (INJ _ _ _ NM NJ) in ND. apply NoDup_remove_2 in ND. apply ND, in_or_app. auto. }
  assert (LST : forall ts kids, Forall (fun t => forall o vis, presents d name o t -> NoDup (vis ++ nodes_of (occurrences o)) -> alias_ok vis (occurrences o) ->
      scoped (anames name vis) (events_of t) /\ declared (events_of t) = anames name (nodes_of (occurrences o))) ts -> Forall2 (presents d name) kids ts ->
      forall vis, NoDup (vis ++ nodes_of (flat_map occurrences kids)) -> alias_ok vis (flat_map occurrences kids) ->
      scoped (anames name vis) (flat_map events_of ts) /\ declared (flat_map events_of ts) = anames name (nodes_of (flat_map occurrences kids))).
  { intros ts kids F P. revert F. induction P as [|o t kids ts P1 P2 IHP]; intros F vis ND A; [split; [exact I|reflexivity]|]. inversion F as [|? ? T F']; subst.
    cbn [flat_map] in *. rewrite nodes_of_app, app_assoc in ND. apply alias_ok_app in A. destruct A as (A1 & A2).
    assert (ND1 : NoDup (vis ++ nodes_of (occurrences o))).
    { clear -ND. remember (nodes_of (flat_map occurrences kids)) as l eqn:X. clear X. induction l as [|x l IHl] using rev_ind; [rewrite app_nil_r in ND; exact ND|].
      rewrite app_assoc in ND. apply NoDup_remove_1 in ND. rewrite app_nil_r in ND. auto. }
    destruct (T o vis P1 ND1 A1) as (S1 & D1). destruct (IHP F' _ ND A2) as (S2 & D2).
    rewrite scoped_app, declared_app, nodes_of_app, anames_app, D1, D2. rewrite anames_app in S2. auto. }
  induction t as [a|a tag v pi qi st|a tag im st items IH|a tag im st pairs IH] using tree_induction; intros o vis P ND A; inversion P; subst.
  - split; [|reflexivity]. cbn. split; [|split; [discriminate|exact I]]. intros b E. inversion E; subst. apply in_anames. exists i. split; [|assumption].
    specialize (A [] i [] eq_refl). rewrite app_nil_r in A. exact A.
  - split; [|cbn; destruct (name i); reflexivity]. cbn. split; [discriminate|]. split; [|exact I]. intros b E. exact (FR vis i _ b ND E).
  - destruct (LST items kids IH ltac:(assumption) (vis ++ [i])) as (S & D); [rewrite <- app_assoc; exact ND|apply alias_ok_cons; exact A|].
    cbn [events_of scoped]. split.
    + split; [discriminate|]. split; [intros b E; exact (FR vis i _ b ND E)|]. apply scoped_app. split.
      * replace (declared [_]) with (anames name [i]) by (cbn; destruct (name i); reflexivity). rewrite <- anames_app. exact S.
      * cbn. repeat split; discriminate.
    + change (ESeqStart (name i) (Some (n_tag n)) im st :: flat_map events_of items ++ [ESeqEnd]) with ([ESeqStart (name i) (Some (n_tag n)) im st] ++ flat_map events_of items ++ [ESeqEnd]).
      rewrite !declared_app, D. cbn. rewrite !app_nil_r. destruct (name i); reflexivity.
  - assert (FM : flat_map (fun '(k, v) => events_of k ++ events_of v) pairs = flat_map events_of (flat_map (fun p => [fst p; snd p]) pairs)).
    { clear. induction pairs as [|[a b] qs IHq]; cbn; [reflexivity|]. rewrite IHq, <- app_assoc. reflexivity. }
    destruct (LST (flat_map (fun p => [fst p; snd p]) pairs) kids) with (vis := vis ++ [i]) as (S & D); [|assumption|rewrite <- app_assoc; exact ND|apply alias_ok_cons; exact A|].
    { clear -IH. induction IH as [|[k v] r (K & V) F IHF]; cbn in *; [constructor|]. constructor; [exact K|]. constructor; [exact V|exact IHF]. }
    cbn [events_of scoped]. rewrite FM. split.
    + split; [discriminate|]. split; [intros b E; exact (FR vis i _ b ND E)|]. apply scoped_app. split.
      * replace (declared [_]) with (anames name [i]) by (cbn; destruct (name i); reflexivity). rewrite <- anames_app. exact S.
      * cbn. repeat split; discriminate.
    + change (EMapStart ?a ?b ?c ?e :: ?l ++ [EMapEnd]) with ([EMapStart a b c e] ++ l ++ [EMapEnd]).
      rewrite !declared_app, D. cbn. rewrite !app_nil_r. destruct (name i); reflexivity.
Qed.

Section iso.
  Variable ss : sstyle -> sstyle -> Prop.
  Variable cs : cstyle -> cstyle -> Prop.
  Inductive same_tree : tree -> tree -> Prop :=
  | ST_alias a : same_tree (Alias a) (Alias a)
  | ST_scalar a tag tag' v pi qi pi' qi' s s' :
      tag_or_default tag default_scalar_tag = tag_or_default tag' default_scalar_tag -> ss s s' ->
      same_tree (Scalar a tag v pi qi s) (Scalar a tag' v pi' qi' s')
  | ST_sequence a tag tag' i i' s s' l l' :
      tag_or_default tag default_sequence_tag = tag_or_default tag' default_sequence_tag -> cs s s' ->
      Forall2 same_tree l l' -> same_tree (Sequence a tag i s l) (Sequence a tag' i' s' l')
  | ST_mapping a tag tag' i i' s s' l l' :
      tag_or_default tag default_mapping_tag = tag_or_default tag' default_mapping_tag -> cs s s' ->
      Forall2 same_tree (flat_map (fun p => [fst p; snd p]) l) (flat_map (fun p => [fst p; snd p]) l') ->
      same_tree (Mapping a tag i s l) (Mapping a tag' i' s' l').
  Notation flat ps := (flat_map (fun p : tree * tree => [fst p; snd p]) ps).
  Lemma flat_events (ps : list (tree * tree)) : flat_map (fun '(k, v) => events_of k ++ events_of v) ps = flat_map events_of (flat ps).
  Proof. induction ps as [|[a b] qs IHq]; cbn; [reflexivity|]. rewrite IHq, <- app_assoc. reflexivity. Qed.
  Lemma flat_Forall (P : tree -> Prop) ps : Forall (fun kv => P (fst kv) /\ P (snd kv)) ps -> Forall P (flat ps).
  Proof. induction 1 as [|[k v] r (K & V) F IHF]; cbn in *; [constructor|]. constructor; [exact K|]. constructor; [exact V|exact IHF]. Qed.
  Lemma same_events_tree : forall t l, Forall2 (same_event ss cs) (events_of t) l -> exists t', l = events_of t' /\ same_tree t t'.
  Proof.
    assert (LST : forall ts, Forall (fun t => forall l, Forall2 (same_event ss cs) (events_of t) l -> exists t', l = events_of t' /\ same_tree t t') ts ->
      forall l, Forall2 (same_event ss cs) (flat_map events_of ts) l -> exists ts', l = flat_map events_of ts' /\ Forall2 same_tree ts ts').
    { induction 1 as [|t ts T F IHF]; intros l H; cbn in H; [inversion H; exists []; auto|].
      apply Forall2_app_inv_l in H. destruct H as (l1 & l2 & H1 & H2 & ->). destruct (T _ H1) as (t' & -> & S1). destruct (IHF _ H2) as (ts' & -> & S2).
      exists (t' :: ts'). split; [reflexivity|constructor; auto]. }
    intros t. induction t as [a|a tag v pi qi st|a tag im st items IH|a tag im st pairs IH] using tree_induction; intros l H; cbn [events_of] in H.
    - inversion H as [|? ? ? ? H1 H2]; subst. inversion H2; subst. inversion H1; subst. exists (Alias a). split; [reflexivity|constructor].
    - inversion H as [|? ? ? ? H1 H2]; subst. inversion H2; subst. inversion H1; subst. eexists (Scalar _ _ _ _ _ _). split; [reflexivity|constructor; auto].
    - inversion H as [|? ? ? ? H1 H2]; subst. apply Forall2_app_inv_l in H2. destruct H2 as (l1 & l2 & H2 & H3 & ->). inversion H3 as [|? ? ? ? H4 H5]; subst. inversion H5; subst. inversion H4; subst. inversion H1; subst.
      destruct (LST _ IH _ H2) as (ts' & -> & S). eexists (Sequence _ _ _ _ ts'). split; [reflexivity|constructor; auto].
    - inversion H as [|? ? ? ? H1 H2]; subst. rewrite flat_events in H2. apply Forall2_app_inv_l in H2. destruct H2 as (l1 & l2 & H2 & H3 & ->). inversion H3 as [|? ? ? ? H4 H5]; subst. inversion H5; subst. inversion H4; subst. inversion H1; subst.
      destruct (LST _ (flat_Forall _ _ IH) _ H2) as (ts' & -> & S).
      assert (K : forall (ps : list (tree * tree)) us, Forall2 same_tree (flat ps) us -> exists qs, us = flat qs).
      { clear. induction ps as [|[k v] ps IHp]; intros us F; cbn in F; [inversion F; exists []; reflexivity|].
        inversion F as [|? u1 ? ur ? F1]; subst. inversion F1 as [|? u2 ? ur' ? F2]; subst. destruct (IHp _ F2) as (qs & ->). exists ((u1, u2) :: qs). reflexivity. }
      destruct (K _ _ S) as (qs & ->). eexists (Mapping _ _ _ _ qs). split; [cbn [events_of]; rewrite flat_events; reflexivity|constructor; auto].
  Qed.
  Lemma same_scoped l l' : Forall2 (same_event ss cs) l l' -> forall known, scoped known l -> scoped known l'.
  Proof.
    induction 1 as [|e e' l l' E F IH]; intros known H; [exact I|]. cbn in H |- *. destruct H as (A & B & C).
    destruct E; cbn in *; (split; [first [exact A|discriminate|intros b Q; inversion Q; subst; apply A; reflexivity]|]); (split; [exact B|]); apply IH; exact C.
  Qed.

  Variable d d' : document.
  Variable name : nat -> option (list N).
  Hypothesis INJ : forall i j a, name i = Some a -> name j = Some a -> i = j.
  Variable V : list nat.
  Hypothesis NDV : NoDup V.
  Fixpoint index (l : list nat) (j : nat) : nat := match l with [] => 0 | x :: r => if Nat.eq_dec x j then 1 else S (index r j) end.
  Lemma index_at vis j r : V = vis ++ j :: r -> index V j = S (length vis).
  Proof.
    intros E. rewrite E. assert (ND : NoDup (vis ++ j :: r)) by (rewrite <- E; exact NDV). clear E. induction vis as [|x vis IH]; cbn [index app length].
    - destruct (Nat.eq_dec j j); congruence.
    - cbn in ND. inversion ND; subst. destruct (Nat.eq_dec x j) as [->|]; [exfalso; apply H1, in_or_app; cbn; auto|]. rewrite IH; auto.
  Qed.
  Notation f := (index V).
  Definition envn (l : list nat) : anchors := flat_map (fun j => match name j with Some a => [(a, f j)] | None => [] end) l.
  Lemma envn_app a b : envn (a ++ b) = envn a ++ envn b.
  Proof. apply flat_map_app. Qed.
  Lemma declare_envn vis i r : V = vis ++ i :: r -> declare (envn vis) (name i) (S (length vis)) = envn (vis ++ [i]).
  Proof. intros E. rewrite envn_app. cbn. rewrite (index_at _ _ _ E). destruct (name i); cbn; rewrite ?app_nil_r; reflexivity. Qed.
  Definition placed (j : nat) : Prop := forall m, node_at d j = Some m -> exists m', node_at d' (f j) = Some m' /\ same_node ss cs f m m'.

  Definition result (o : occ) (vis : list nat) (i : nat) (env' : anchors) (n' : nat) : Prop :=
    i = f (occ_id o) /\ n' = length (vis ++ nodes_of (occurrences o)) /\ env' = envn (vis ++ nodes_of (occurrences o)) /\ Forall placed (nodes_of (occurrences o)).
  Definition good (t : tree) : Prop := forall o t' vis rest i env' n', presents d name o t -> same_tree t t' ->
    denotes d' (envn vis) (length vis) t' i env' n' -> V = vis ++ nodes_of (occurrences o) ++ rest -> alias_ok vis (occurrences o) ->
    result o vis i env' n'.
  Lemma good_items ts : Forall good ts -> forall kids ts' vis rest ids env' n', Forall2 (presents d name) kids ts -> Forall2 same_tree ts ts' ->
    denotes_items d' (envn vis) (length vis) ts' ids env' n' -> V = vis ++ nodes_of (flat_map occurrences kids) ++ rest -> alias_ok vis (flat_map occurrences kids) ->
    ids = map f (map occ_id kids) /\ n' = length (vis ++ nodes_of (flat_map occurrences kids)) /\ env' = envn (vis ++ nodes_of (flat_map occurrences kids)) /\
    Forall placed (nodes_of (flat_map occurrences kids)).
  Proof.
    induction 1 as [|t ts G F IH]; intros kids ts' vis rest ids env' n' P S D E A; inversion P; subst; inversion S; subst; inversion D; subst.
    - cbn. rewrite app_nil_r. auto.
    - cbn [flat_map] in E, A. rewrite nodes_of_app, <- app_assoc in E. apply alias_ok_app in A. destruct A as (A1 & A2).
      match goal with H : presents _ _ ?o t, K : denotes _ _ _ _ _ _ _, L : same_tree t _ |- _ => destruct (G _ _ _ _ _ _ _ H L K E A1) as (-> & -> & -> & G4) end.
      match goal with K : denotes_items _ _ _ _ _ _ _, L : Forall2 same_tree ts _, M : Forall2 (presents _ _) _ ts |- _ =>
        destruct (IH _ _ _ rest _ _ _ M L K) as (-> & -> & -> & I4); [rewrite <- app_assoc; exact E|exact A2|] end.
      cbn [flat_map map]. rewrite !nodes_of_app, !app_assoc. split; [reflexivity|]. split; [reflexivity|]. split; [reflexivity|]. apply Forall_app. auto.
  Qed.
  Lemma pairs_items (ps : list (tree * tree)) : forall env n ids env' n', denotes_pairs d' env n ps ids env' n' ->
    denotes_items d' env n (flat ps) (flat_map (fun p => [fst p; snd p]) ids) env' n'.
  Proof.
    induction ps as [|[k v] ps IH]; intros env n ids env' n' D; inversion D; subst; cbn; [constructor|]. econstructor; [eassumption|]. econstructor; [eassumption|]. apply IH. assumption.
  Qed.
  Lemma unflat (a b : list (nat * nat)) g : flat_map (fun p => [fst p; snd p]) a = map g (flat_map (fun p => [fst p; snd p]) b) -> a = map (fun p => (g (fst p), g (snd p))) b.
  Proof.
    revert b. induction a as [|[x y] a IH]; intros [|[z w] b] E; cbn in E; try discriminate; [reflexivity|]. inversion E; subst. cbn. f_equal. auto.
  Qed.
  Lemma tree_good t : good t.
  Proof.
    induction t as [a|a tag v pi qi st|a tag im st items IH|a tag im st pairs IH] using tree_induction; intros o t' vis rest i env' n' P S D E A; inversion P; subst; inversion S; subst; inversion D; subst.
    - unfold result. cbn. rewrite app_nil_r. split; [|auto].
      match goal with K : In _ (envn vis), L : name ?j = Some a |- _ => apply in_flat_map in K; destruct K as (j' & J & K); destruct (name j') eqn:NJ; [|destruct K]; destruct K as [K|[]]; inversion K; subst;
        rewrite (INJ _ _ _ NJ L); reflexivity end.
    - match goal with |- result (ONode ?k []) _ _ _ _ => rename k into j end.
      change (V = vis ++ j :: rest) in E. unfold result. change (nodes_of (occurrences (ONode j []))) with [j]. rewrite (declare_envn _ _ _ E). cbn [occ_id]. rewrite (index_at _ _ _ E), app_length. cbn [length].
      split; [reflexivity|]. split; [lia|]. split; [reflexivity|]. constructor; [|constructor]. intros m Em. rewrite (index_at _ _ _ E).
      eexists. split; [eassumption|]. match goal with K : node_at d j = Some ?n, M : n_data ?n = _ |- _ => assert (X : m = n) by congruence; rewrite X; unfold same_node; rewrite M end. cbn [n_data n_tag]. auto.
    - match goal with |- result (ONode ?k ?l) _ _ _ _ => rename k into j; rename l into ks end.
      change (V = vis ++ j :: nodes_of (flat_map occurrences ks) ++ rest) in E. unfold result. change (nodes_of (occurrences (ONode j ks))) with (j :: nodes_of (flat_map occurrences ks)).
      apply alias_ok_cons in A. cbn [occ_id]. rewrite (index_at _ _ _ E).
      match goal with K : denotes_items _ _ _ _ _ _ _, L : Forall2 same_tree items _, M : Forall2 (presents _ _) _ items |- _ =>
        rewrite (declare_envn _ _ _ E) in K; replace (Datatypes.S (length vis)) with (length (vis ++ [j])) in K by (rewrite app_length; cbn; lia);
        destruct (good_items _ IH _ _ _ rest _ _ _ M L K) as (-> & -> & -> & I4); [rewrite <- app_assoc; exact E|exact A|] end.
      rewrite <- !app_assoc. cbn [app]. split; [reflexivity|]. split; [reflexivity|]. split; [reflexivity|]. constructor; [|exact I4]. intros m Em. rewrite (index_at _ _ _ E).
      eexists. split; [eassumption|]. match goal with K : node_at d j = Some ?n, M : n_data ?n = _ |- _ => assert (X : m = n) by congruence; rewrite X; unfold same_node; rewrite M end. cbn [n_data n_tag]. auto.
    - match goal with |- result (ONode ?k ?l) _ _ _ _ => rename k into j; rename l into ks end.
      change (V = vis ++ j :: nodes_of (flat_map occurrences ks) ++ rest) in E. unfold result. change (nodes_of (occurrences (ONode j ks))) with (j :: nodes_of (flat_map occurrences ks)).
      apply alias_ok_cons in A. cbn [occ_id]. rewrite (index_at _ _ _ E).
      match goal with K : denotes_pairs _ _ _ _ ?ids _ _, L : Forall2 same_tree _ _, M : Forall2 (presents _ _) _ _, Q : flat_map _ ?p0 = map occ_id ks |- _ =>
        rewrite (declare_envn _ _ _ E) in K; replace (Datatypes.S (length vis)) with (length (vis ++ [j])) in K by (rewrite app_length; cbn; lia);
        apply pairs_items in K;
        destruct (good_items _ (flat_Forall _ _ IH) _ _ _ rest _ _ _ M L K) as (I1 & -> & -> & I4); [rewrite <- app_assoc; exact E|exact A|];
        rewrite <- Q in I1; apply unflat in I1 end.
      rewrite <- !app_assoc. cbn [app]. split; [reflexivity|]. split; [reflexivity|]. split; [reflexivity|]. constructor; [|exact I4]. intros m Em. rewrite (index_at _ _ _ E).
      eexists. split; [eassumption|]. match goal with K : node_at d j = Some ?n, M : n_data ?n = _ |- _ => assert (X : m = n) by congruence; rewrite X; unfold same_node; rewrite M end. cbn [n_data n_tag]. auto.
  Qed.
End iso.

Lemma index_in (V : list nat) i : In i V -> exists vis r, V = vis ++ i :: r.
Proof. apply in_split. Qed.
Lemma dumped_root d dt d' ss cs t' env : dumped d dt -> same_tree ss cs (dt_root dt) t' -> d_version d' = d_version d -> d_tags d' = d_tags d ->
  denotes d' [] 0 t' 1 env (length (d_nodes d')) -> exists f, isomorphic ss cs f d d'.
Proof.
  intros (_ & _ & _ & _ & o & name & OID & PR & (ND & RE & AL) & (_ & INJ)) ST VV TT D.
  set (V := nodes_of (occurrences o)) in *. exists (index V).
  assert (A : alias_ok [] (occurrences o)).
  { intros b j a E. specialize (AL _ _ _ E). cbn. unfold nodes_of. apply in_map_iff. exists (true, j). split; [reflexivity|]. apply filter_In. auto. }
  destruct (tree_good ss cs d d' name INJ V ND (dt_root dt) o t' [] [] 1%nat env (length (d_nodes d')) PR ST D) as (I1 & I2 & _ & I4); [cbn; rewrite app_nil_r; reflexivity|exact A|].
  rewrite OID in I1. cbn [app] in I2. fold V in I2, I4. split; [auto|]. split; [exact VV|]. split; [exact TT|]. split; [|split].
  - intros i n R E. apply RE in R. exact (proj1 (Forall_forall _ _) I4 _ R _ E).
  - intros i j Ri Rj E. apply RE in Ri, Rj. destruct (index_in _ _ Ri) as (v1 & r1 & E1). destruct (index_in _ _ Rj) as (v2 & r2 & E2).
    rewrite (index_at V ND _ _ _ E1), (index_at V ND _ _ _ E2) in E.
    assert (G : forall (v1 v2 : list nat) r1 r2, v1 ++ i :: r1 = v2 ++ j :: r2 -> length v1 = length v2 -> i = j).
    { clear. induction v1 as [|x v1 IH]; intros [|y v2] r1 r2 E L; cbn in *; try discriminate; [congruence|]. inversion E. eapply IH; eauto. }
    eapply G; [rewrite <- E1; exact E2|lia].
  - intros k n E. assert (R : (1 <= k <= length V)%nat) by (rewrite <- I2; rewrite node_at_index in E; exact (at_index_range _ _ _ E)).
    destruct (nth_error V (k - 1)) as [i|] eqn:NE; [|apply nth_error_None in NE; lia]. exists i. apply nth_error_split in NE. destruct NE as (v1 & r1 & E1 & L1).
    split; [apply RE; change (In i V); rewrite E1; apply in_or_app; cbn; auto|]. rewrite (index_at V ND _ _ _ E1). lia.
Qed.

Lemma dumped_scoped d dt : dumped d dt -> scoped [] (events_of (dt_root dt)).
Proof.
  intros (_ & _ & _ & _ & o & name & OID & PR & (ND & RE & AL) & (_ & INJ)).
  apply (tree_scoped d name INJ (dt_root dt) o [] PR ND).
  intros b j a E. specialize (AL _ _ _ E). cbn. unfold nodes_of. apply in_map_iff. exists (true, j). split; [reflexivity|]. apply filter_In. auto.
Qed.

Lemma dump_load_iso ss cs d dt fuel input ds l es q : dumped d dt -> (4 * length input < fuel)%nat -> load_history fuel input ds l ->
  reading l es q -> Forall2 (same_event ss cs) (doc_events dt) (map e_ev es) ->
  exists d' f, load fuel l = LDocument d' (mkLoader q true) /\ isomorphic ss cs f d d'.
Proof.
  intros D B H R F. unfold doc_events in F. inversion F as [|? x ? y F1 F2 E1 E2]; subst. apply Forall2_app_inv_l in F2. destruct F2 as (l1 & l2 & F2 & F3 & ->).
  inversion F3 as [|? x3 ? ? F4 F5]; subst. inversion F5; subst. inversion F4; subst. inversion F1; subst.
  destruct (same_events_tree ss cs _ _ F2) as (t' & -> & ST).
  match goal with E : EDocStart ?v ?tg ?i :: _ ++ [EDocEnd ?j] = _ |- _ => rename E into EE; set (dt' := mkDocTree v tg i t' j) end.
  destruct (compose_accepted fuel input ds l es q dt' B H R (eq_sym EE)) as (d' & L & (H1 & H2 & _ & _ & env & DN)).
  - apply scoped_well. eapply same_scoped; [exact F2|]. eapply dumped_scoped; eauto.
  - exists d'. destruct (dumped_root d dt d' ss cs t' env D ST) as (f & I); [..|exists f; auto].
    + rewrite H1. destruct D as (D1 & _). exact D1.
    + rewrite H2. destruct D as (_ & D1 & _). exact D1.
    + exact DN.
Qed.
Lemma dump_load fuel sink ds s d : dump_calls fuel (init_dumper sink) ds s -> closed d -> (length (d_nodes d) < fuel)%nat -> d_nodes d <> [] ->
  forall s', dump fuel s d = DOk s' -> exists written, dm_log s' = dm_log s ++ opening (dm_opened s) ++ written /\
    forall ss cs fuel' input ds' l es q, (4 * length input < fuel')%nat -> load_history fuel' input ds' l ->
      reading l es q -> Forall2 (same_event ss cs) written (map e_ev es) ->
      exists d' f, load fuel' l = LDocument d' (mkLoader q true) /\ isomorphic ss cs f d d'.
Proof.
  intros H C L N s' E. destruct (dump_node_cases _ _ _ _ _ H C L N) as (dt & D & X). rewrite E in X. exists (doc_events dt). split; [exact X|].
  intros. eapply dump_load_iso; eauto.
Qed.

(* C33: aliases follow their anchors *)
Lemma dumped_well_scoped d dt : dumped d dt -> well_scoped (events_of (dt_root dt)).
Proof. intros D. apply scoped_well. eapply dumped_scoped; eauto. Qed.

(* for the examples *)
Fixpoint next_events (k : nat) (p : parser) : list event * parser :=
  match k with
  | O => ([], p)
  | S k => match parse p with PEvent e p' => let (es, q) := next_events k p' in (e :: es, q) | _ => ([], p) end
  end.
Lemma next_yields k : forall p, yields p (fst (next_events k p)) (snd (next_events k p)).
Proof.
  induction k as [|k IH]; intros p; cbn; [constructor|]. destruct (parse p) as [e p'| | |] eqn:E; try constructor.
  specialize (IH p'). destruct (next_events k p') as [es q]. cbn in *. eapply yields_cons; eauto.
Qed.
Lemma dump_anchors fuel sink ds s d s' : dump_calls fuel (init_dumper sink) ds s -> closed d -> (length (d_nodes d) < fuel)%nat -> d_nodes d <> [] -> dump fuel s d = DOk s' ->
  exists dt o name, dm_log s' = dm_log s ++ opening (dm_opened s) ++ doc_events dt /\ occ_id o = 1%nat /\ presents d name o (dt_root dt) /\
    (forall i, reachable d i -> (name i <> None <-> (1 < references d (nodes_of (occurrences o)) i)%nat)) /\
    (forall i j a, name i = Some a -> name j = Some a -> i = j) /\ well_scoped (events_of (dt_root dt)).
Proof.
  intros H C L N E. destruct (dump_node_cases _ _ _ _ _ H C L N) as (dt & D & X). rewrite E in X.
  pose proof (dumped_well_scoped _ _ D) as W. destruct D as (_ & _ & _ & _ & o & name & A & B & _ & (Y & Z)). exists dt, o, name. auto 10.
Qed.
