From Verif Require Import Base ContainerModel ContainerSpec.

Section P.
  Context {A : Type}.
  Implicit Types (m : @block A) (l : list A).

  Lemma cell_write_ok (a : @block A) x0 c i x : nlen a = i ->
    cell_write (a ++ x0 :: c) i x = Some (a ++ x :: c).
  Proof.
    intros Hi. unfold cell_write. rewrite nlen_app, nlen_cons.
    destruct (N.ltb_spec i (nlen a + (1 + nlen c))); [|lia].
    assert (N.to_nat i = length a) by (unfold nlen in *; lia). rewrite H0.
    rewrite firstn_app, firstn_all, Nat.sub_diag. cbn [firstn]. rewrite app_nil_r.
    rewrite skipn_app. replace (skipn (S (length a)) a) with (@nil (option A)) by (symmetry; apply skipn_all2; lia).
    replace (S (length a) - length a)%nat with 1%nat by lia. reflexivity.
  Qed.

  Lemma cell_write_len m i x m' : cell_write m i x = Some m' -> nlen m' = nlen m.
  Proof.
    unfold cell_write. destruct (N.ltb_spec i (nlen m)) as [H|H]; [|discriminate]. intros E. injection E as <-.
    unfold nlen in *. rewrite app_length. cbn [length]. change (match m with [] => [] | _ :: l => skipn (N.to_nat i) l end) with (skipn (S (N.to_nat i)) m).
    rewrite firstn_length, skipn_length. lia.
  Qed.

  Lemma cell_read_ok (a : @block A) x c i : nlen a = i -> cell_read (a ++ Some x :: c) i = Some x.
  Proof.
    intros Hi. unfold cell_read. rewrite nth_error_app2 by (unfold nlen in *; lia).
    replace (N.to_nat i - length a)%nat with 0%nat by (unfold nlen in *; lia). reflexivity.
  Qed.

  (* a stack holding [l] *)
  Definition stack_inv (s : stack A) l : Prop :=
    exists junk, stk_mem s = map Some l ++ junk /\ stk_top s = nlen l /\ 16 <= nlen (stk_mem s).

  Lemma nlen_map {B C} (f : B -> C) (x : list B) : nlen (map f x) = nlen x.
  Proof. unfold nlen. rewrite map_length. reflexivity. Qed.

  Lemma stack_push_ok sizeof s l x b : stack_inv s l ->
    exists s' o, stack_push sizeof s x b = Some (s', o) /\
      ((o = Done /\ stack_inv s' (l ++ [x])) \/
       (o = MemoryError /\ s' = s /\ (b = false \/ STACK_BYTES_LIMIT <= nlen (stk_mem s) * sizeof))).
  Proof.
    intros (junk & Em & Et & Hm). unfold stack_push.
    rewrite Et. assert (Hc : nlen (stk_mem s) = nlen l + nlen junk) by (rewrite Em, nlen_app, nlen_map; reflexivity).
    destruct (N.eqb_spec (nlen l) (nlen (stk_mem s))) as [E|E]; cbn [negb].
    - assert (junk = []) by (apply nlen_0; lia). subst junk. rewrite app_nil_r in Em.
      unfold stack_extend. destruct (N.leb_spec STACK_BYTES_LIMIT (nlen (stk_mem s) * sizeof)).
      + eexists _, _. split; [reflexivity|]. right. auto.
      + destruct b; cbn [negb].
        * cbn [stk_mem stk_top]. unfold grow. rewrite Em, Et.
          assert (exists k, repeat (@None A) (length (map Some l)) = None :: k) as [k Ek].
          { rewrite map_length. destruct l; [rewrite Em in Hm; cbn in Hm; lia|]. eexists. reflexivity. }
          rewrite Ek, cell_write_ok by (apply nlen_map).
          eexists _, _. split; [reflexivity|]. left. split; [reflexivity|].
          exists k. cbn [stk_mem stk_top]. rewrite map_app, <- app_assoc. split; [reflexivity|].
          rewrite Em in Hm. rewrite !nlen_app, nlen_cons in *. cbn [map]. rewrite ?nlen_cons, ?nlen_nil. split; lia.
        * eexists _, _. split; [reflexivity|]. right. auto.
    - destruct junk as [|j0 junk]; [change (nlen []) with 0 in Hc; lia|].
      rewrite Em, Et, cell_write_ok by (apply nlen_map).
      eexists _, _. split; [reflexivity|]. left. split; [reflexivity|].
      exists junk. cbn [stk_mem stk_top]. rewrite map_app, <- app_assoc. split; [reflexivity|].
      rewrite Em in Hm. rewrite !nlen_app, ?nlen_cons in *. cbn [map]. rewrite ?nlen_cons, ?nlen_nil in *. split; lia.
  Qed.

  Lemma stack_pop_ok s l x : stack_inv s (l ++ [x]) -> exists s', stack_pop s = Some (s', Got x) /\ stack_inv s' l.
  Proof.
    intros (junk & Em & Et & Hm). unfold stack_pop. rewrite Et, nlen_app, nlen_cons, nlen_nil.
    destruct (N.eqb_spec (nlen l + (1 + 0)) 0); [lia|].
    rewrite Em, map_app, <- app_assoc. cbn [map app].
    rewrite cell_read_ok by (rewrite nlen_map; lia).
    eexists. split; [reflexivity|]. exists (Some x :: junk). cbn [stk_mem stk_top]. split; [reflexivity|].
    rewrite Em, map_app, <- app_assoc in Hm. cbn [map app] in Hm. split; [lia|]. assumption.
  Qed.

  Lemma last_cases l : l = [] \/ exists k x, l = k ++ [x].
  Proof. destruct l as [|a l]; [auto|]. right. destruct (@exists_last _ (a :: l)) as (k & x & E); [discriminate|eauto]. Qed.

  Lemma stack_run_ok sizeof : forall ops s l, stack_inv s l ->
    (exists s' os l', stack_run sizeof s ops = Some (s', os) /\ stack_runs l ops os l' /\ stack_inv s' l') \/
    (stack_run sizeof s ops = None /\ exists ops1 os ops2, ops = ops1 ++ SPop :: ops2 /\ stack_runs l ops1 os []).
  Proof.
    induction ops as [|op ops IH]; intros s l I.
    - left. exists s, [], l. repeat split; auto. constructor.
    - cbn [stack_run].
      assert (X : forall s' o l', stack_step sizeof s op = Some (s', o) -> stack_does l op o l' -> stack_inv s' l' ->
        (exists s' os l', stack_run sizeof s (op :: ops) = Some (s', os) /\ stack_runs l (op :: ops) os l' /\ stack_inv s' l') \/
        (stack_run sizeof s (op :: ops) = None /\ exists ops1 os ops2, op :: ops = ops1 ++ SPop :: ops2 /\ stack_runs l ops1 os [])).
      { intros s' o l' E D I'. cbn [stack_run]. rewrite E.
        destruct (IH s' _ I') as [(s2 & os & l2 & E2 & R2 & I2)|(E2 & ops1 & os & ops2 & -> & R2)]; rewrite E2.
        - left. eexists _, _, _. split; [reflexivity|]. split; [|exact I2]. econstructor; [exact D|exact R2].
        - right. split; [reflexivity|]. exists (op :: ops1), (o :: os), ops2. split; [reflexivity|]. econstructor; [exact D|exact R2]. }
      destruct op as [x b|].
      + destruct (stack_push_ok sizeof s l x b I) as (s' & o & E & [(-> & I')|(-> & -> & _)]).
        * eapply X; [exact E|constructor|exact I'].
        * eapply X; [exact E|apply sd_full|exact I].
      + destruct (last_cases l) as [->|(k & x & ->)].
        * right. cbn [stack_step]. unfold stack_pop. destruct I as (junk & Em & Et & Hm). rewrite Et.
          split; [reflexivity|]. exists [], [], ops. split; [reflexivity|]. constructor.
        * destruct (stack_pop_ok _ _ _ I) as (s' & E & I'). eapply X; [exact E|constructor|exact I'].
  Qed.

  Lemma stack_init_inv : stack_inv (@stack_init A) [].
  Proof. eexists. cbn [stack_init stk_mem stk_top map app]. split; [reflexivity|]. split; [reflexivity|]. vm_compute. discriminate. Qed.

  (* without refusals by the allocator a push only fails at the size limit *)
  Lemma stack_no_error sizeof : forall ops s l k, stack_inv s l -> nlen (stk_mem s) <= k -> 2 * nlen l <= k ->
    Forall granted_s ops -> (k + 2 * nlen ops) * sizeof < STACK_BYTES_LIMIT ->
    forall s' os, stack_run sizeof s ops = Some (s', os) -> ~ In MemoryError os.
  Proof.
    induction ops as [|op ops IH]; intros s l k I Hk Hl HG Hb s' os E.
    - injection E as <- <-. auto.
    - cbn [stack_run] in E. inversion HG as [|? ? G HG']; subst. rewrite nlen_cons in Hb.
      destruct (stack_step sizeof s op) as [[s1 o]|] eqn:E1; [|discriminate].
      destruct (stack_run sizeof s1 ops) as [[s2 os2]|] eqn:E2; [|discriminate]. injection E as <- <-.
      destruct op as [x b|]; cbn [stack_step] in E1.
      + cbn in G. subst b. destruct (stack_push_ok sizeof s l x true I) as (sa & oa & Ea & [(-> & I')|(-> & -> & [?|Hx])]); [|discriminate|nia].
        rewrite Ea in E1. injection E1 as <- <-.
        intros [?|Hin]; [discriminate|]. revert Hin. eapply (IH sa (l ++ [x]) (k + 2)); eauto.
        * unfold stack_push in Ea. destruct I as (junk & Em & Et & Hm). rewrite Et in Ea.
          destruct (N.eqb_spec (nlen l) (nlen (stk_mem s))) as [Hf|Hf]; cbn [negb] in Ea.
          -- unfold stack_extend in Ea. destruct (_ <=? _); [discriminate|]. cbn [negb] in Ea. cbn [stk_mem stk_top] in Ea.
             destruct (cell_write _ _ _) as [m|] eqn:Ew; [|discriminate]. injection Ea as <-. cbn [stk_mem].
             rewrite (cell_write_len _ _ _ _ Ew). unfold grow, nlen in *. rewrite app_length, repeat_length. lia.
          -- destruct (cell_write _ _ _) as [m|] eqn:Ew; [|discriminate]. injection Ea as <-. cbn [stk_mem].
             rewrite (cell_write_len _ _ _ _ Ew). lia.
        * rewrite nlen_app, nlen_cons, nlen_nil. lia.
        * nia.
      + destruct (last_cases l) as [->|(l0 & x & ->)].
        * unfold stack_pop in E1. destruct I as (junk & Em & Et & Hm). rewrite Et in E1. discriminate.
        * destruct (stack_pop_ok _ _ _ I) as (sa & Ea & I'). rewrite Ea in E1. injection E1 as <- <-.
          intros [?|Hin]; [discriminate|]. revert Hin. eapply (IH sa l0 k); eauto.
          -- unfold stack_pop in Ea. destruct (_ =? _); [discriminate|]. destruct (cell_read _ _); [|discriminate]. injection Ea as <- _. assumption.
          -- rewrite nlen_app, nlen_cons, nlen_nil in Hl. lia.
          -- nia.
  Qed.

  (* ---- queues ---- *)
  Definition queue_inv (q : queue A) l : Prop :=
    exists pre junk, q_mem q = pre ++ map Some l ++ junk /\ q_head q = nlen pre /\ q_tail q = nlen pre + nlen l /\ 1 <= nlen (q_mem q).

  Lemma cell_move_ok (a b c d : @block A) (m : @block A) dst src len :
    (dst + len <= nlen m) -> (src + len <= nlen m) ->
    m = a ++ b ++ c -> nlen a = src -> nlen b = len ->
    cell_move m dst src len = Some (firstn (N.to_nat dst) m ++ b ++ skipn (N.to_nat (dst + len)) m).
  Proof.
    intros H1 H2 E Ha Hb. unfold cell_move. destruct (N.leb_spec (dst + len) (nlen m)); [|lia]. destruct (N.leb_spec (src + len) (nlen m)); [|lia].
    cbn [andb]. replace (firstn (N.to_nat len) (skipn (N.to_nat src) m)) with b; [reflexivity|].
    rewrite E. replace (N.to_nat src) with (length a) by (unfold nlen in *; lia).
    replace (N.to_nat len) with (length b) by (unfold nlen in *; lia).
    rewrite skipn_app, skipn_all, Nat.sub_diag. cbn [skipn app].
    rewrite firstn_app, firstn_all, Nat.sub_diag. cbn [firstn]. rewrite app_nil_r. reflexivity.
  Qed.

  Lemma queue_room_ok q l b : queue_inv q l ->
    (queue_room q b = Some None /\ b = false) \/
    (exists q' pre j0 junk, queue_room q b = Some (Some q') /\ q_mem q' = pre ++ map Some l ++ j0 :: junk /\
       q_head q' = nlen pre /\ q_tail q' = nlen pre + nlen l).
  Proof.
    intros (pre & junk & Em & Eh & Et & Hm). unfold queue_room.
    rewrite Et, Em, !nlen_app, nlen_map.
    destruct (N.eqb_spec (nlen pre + nlen l) (nlen pre + (nlen l + nlen junk))) as [E|E]; cbn [negb].
    2:{ right. destruct junk as [|j0 junk]; [change (nlen []) with 0 in E; lia|]. exists q, pre, j0, junk. auto. }
    assert (junk = []) by (apply nlen_0; lia). subst junk. rewrite app_nil_r in Em. clear E.
    unfold queue_extend. rewrite Eh, Et.
    assert (Enm : nlen (q_mem q) = nlen pre + nlen l) by (rewrite Em, nlen_app, nlen_map; reflexivity).
    rewrite Enm, N.eqb_refl, andb_true_r.
    destruct (N.eqb_spec (nlen pre) 0) as [E0|E0]; cbn [andb].
    - destruct b; cbn [negb]; [|left; auto].
      right. assert (pre = []) by (apply nlen_0; lia). subst pre.
      change (nlen []) with 0 in *. cbn [app] in Em.
      assert (Hg : nlen (grow (q_mem q)) = 2 * nlen l).
      { unfold grow. unfold nlen in *. rewrite app_length, repeat_length. lia. }
      cbn [q_tail q_mem q_head].
      destruct (N.eqb_spec (0 + nlen l) (nlen (grow (q_mem q)))); [lia|].
      assert (exists k, repeat (@None A) (length (q_mem q)) = None :: k) as [k Ek].
      { destruct (q_mem q); [cbn in Hm; lia|]. eexists. reflexivity. }
      eexists _, [], None, k. split; [reflexivity|]. cbn [q_mem q_head q_tail app]. unfold grow. rewrite Ek, Em.
      auto.
    - cbn [negb]. rewrite Et, Enm, N.eqb_refl, Eh.
      right. destruct l as [|x0 l].
      + change (nlen []) with 0 in *.
        replace (nlen pre =? nlen pre + 0) with true by lia. cbn [negb]. cbn [map app] in Em. rewrite app_nil_r in Em.
        destruct (q_mem q) as [|j0 junk] eqn:Eq; [cbn in Hm; lia|].
        eexists _, [], j0, junk. split; [reflexivity|]. cbn [q_mem q_head q_tail app map]. split; [reflexivity|].
        split; [reflexivity|]. change (nlen []) with 0. lia.
      + replace (nlen pre =? nlen pre + nlen (x0 :: l)) with false by (rewrite nlen_cons; lia). cbn [negb].
        set (l' := x0 :: l) in *.
        rewrite (cell_move_ok pre (map Some l') [] []); [|rewrite Enm; lia|rewrite Enm; lia|rewrite app_nil_r; exact Em|reflexivity|rewrite nlen_map; lia].
        cbn [firstn N.to_nat app].
        assert (Hs : nlen (skipn (N.to_nat (0 + (nlen pre + nlen l' - nlen pre))) (q_mem q)) = nlen pre).
        { unfold nlen in *. rewrite skipn_length. lia. }
        destruct (skipn (N.to_nat (0 + (nlen pre + nlen l' - nlen pre))) (q_mem q)) as [|j0 junk] eqn:Esk; [change (nlen []) with 0 in Hs; lia|].
        eexists _, [], j0, junk. split; [reflexivity|]. cbn [q_mem q_head q_tail app]. split; [reflexivity|].
        split; [reflexivity|]. change (nlen []) with 0. lia.
  Qed.

  Lemma enqueue_ok q l x b : queue_inv q l ->
    (enqueue q x b = Some (q, MemoryError) /\ b = false) \/
    (exists q', enqueue q x b = Some (q', Done) /\ queue_inv q' (l ++ [x])).
  Proof.
    intros I. unfold enqueue. destruct (queue_room_ok q l b I) as [[-> ->]|(q' & pre & j0 & junk & -> & Em & Eh & Et)]; [left; auto|right].
    rewrite Em, Et, app_assoc, cell_write_ok by (rewrite nlen_app, nlen_map; reflexivity).
    eexists. split; [reflexivity|]. exists pre, junk. cbn [q_mem q_head q_tail].
    rewrite map_app, <- !app_assoc. split; [reflexivity|]. split; [assumption|].
    rewrite !nlen_app, !nlen_cons, ?nlen_nil. split; lia.
  Qed.

  Lemma dequeue_ok q l x : queue_inv q (x :: l) -> exists q', dequeue q = Some (q', Got x) /\ queue_inv q' l.
  Proof.
    intros (pre & junk & Em & Eh & Et & Hm). unfold dequeue. rewrite Eh, Et, nlen_cons.
    destruct (N.eqb_spec (nlen pre) (nlen pre + (1 + nlen l))); [lia|].
    rewrite Em. cbn [map app]. rewrite cell_read_ok by reflexivity.
    eexists. split; [reflexivity|]. exists (pre ++ [Some x]), junk. cbn [q_mem q_head q_tail]. rewrite <- app_assoc. split; [reflexivity|].
    rewrite nlen_app, nlen_cons, nlen_nil. split; [reflexivity|]. split; [lia|]. rewrite Em in Hm. exact Hm.
  Qed.

  Lemma queue_insert_ok q l k x b : queue_inv q (l ++ k) ->
    (queue_insert q (nlen l) x b = Some (q, MemoryError) /\ b = false) \/
    (exists q', queue_insert q (nlen l) x b = Some (q', Done) /\ queue_inv q' (l ++ x :: k)).
  Proof.
    intros I. unfold queue_insert. destruct (queue_room_ok q _ b I) as [[-> ->]|(q' & pre & j0 & junk & -> & Em & Eh & Et)]; [left; auto|right].
    rewrite Eh, Et, nlen_app.
    destruct (N.ltb_spec (nlen pre + (nlen l + nlen k) - nlen pre) (nlen l)); [lia|].
    rewrite map_app, <- app_assoc in Em.
    assert (Hn : nlen (q_mem q') = nlen pre + nlen l + nlen k + 1 + nlen junk).
    { rewrite Em, !nlen_app, nlen_cons, !nlen_map. lia. }
    replace (nlen pre + (nlen l + nlen k) - nlen pre - nlen l) with (nlen k) by lia.
    rewrite (cell_move_ok (pre ++ map Some l) (map Some k) (j0 :: junk) []);
      [|rewrite Hn; lia|rewrite Hn; lia|rewrite Em, <- app_assoc; reflexivity|rewrite nlen_app, nlen_map; reflexivity|rewrite nlen_map; lia].
    set (fm := firstn _ _). set (sk := skipn _ _).
    assert (Esk : sk = junk).
    { unfold sk. rewrite Em, !app_assoc.
      replace (N.to_nat (nlen pre + nlen l + 1 + nlen k)) with (length (((pre ++ map Some l) ++ map Some k) ++ [j0])) by (rewrite !app_length, !map_length; cbn; unfold nlen; lia).
      change (j0 :: junk) with ([j0] ++ junk). rewrite app_assoc, skipn_app, skipn_all, Nat.sub_diag. reflexivity. }
    assert (Efm : exists y, fm = (pre ++ map Some l) ++ [y]).
    { unfold fm. rewrite Em, !app_assoc.
      assert (exists y t, map Some k ++ j0 :: junk = y :: t) as (y & t & Ey) by (destruct k; eexists _, _; reflexivity).
      rewrite <- app_assoc, Ey.
      replace (N.to_nat (nlen pre + nlen l + 1)) with (S (length (pre ++ map Some l))) by (rewrite app_length, map_length; unfold nlen; lia).
      exists y. rewrite firstn_app, firstn_all2 by lia.
      replace (S (length (pre ++ map Some l)) - length (pre ++ map Some l))%nat with 1%nat by lia. reflexivity. }
    destruct Efm as [y Efm]. rewrite Efm, Esk. rewrite <- app_assoc. cbn [app].
    rewrite cell_write_ok by (rewrite nlen_app, nlen_map; reflexivity).
    eexists. split; [reflexivity|]. exists pre, junk. cbn [q_mem q_head q_tail].
    rewrite map_app. cbn [map]. rewrite <- !app_assoc. split; [reflexivity|]. split; [reflexivity|].
    rewrite !nlen_app, !nlen_cons. split; lia.
  Qed.

  Lemma queue_step_ok q l op : queue_inv q l -> queue_legal l op ->
    exists q' o l', queue_step q op = Some (q', o) /\ queue_does l op o l' /\ queue_inv q' l' /\ (granted_q op -> o <> MemoryError).
  Proof.
    intros I Hl. destruct op as [x b| |i x b]; cbn [queue_step] in *.
    - destruct (enqueue_ok q l x b I) as [[-> ->]|(q' & -> & I')]; eexists _, _, _; (split; [reflexivity|]).
      + split; [apply qd_enq_full|]. split; [exact I|]. cbn. discriminate.
      + split; [apply qd_enq|]. split; [exact I'|]. discriminate.
    - destruct l as [|x l]; [cbn in Hl; congruence|]. destruct (dequeue_ok q l x I) as (q' & -> & I').
      eexists _, _, _. split; [reflexivity|]. split; [apply qd_deq|]. split; [exact I'|discriminate].
    - cbn in Hl. assert (exists l1 l2, l = l1 ++ l2 /\ i = nlen l1) as (l1 & l2 & -> & ->).
      { exists (firstn (N.to_nat i) l), (skipn (N.to_nat i) l). rewrite firstn_skipn. split; [reflexivity|].
        unfold nlen in *. rewrite firstn_length. lia. }
      destruct (queue_insert_ok q l1 l2 x b I) as [[-> ->]|(q' & -> & I')]; eexists _, _, _; (split; [reflexivity|]).
      + split; [apply qd_ins_full; assumption|]. split; [exact I|]. cbn. discriminate.
      + split; [apply qd_ins|]. split; [exact I'|]. discriminate.
  Qed.

  Lemma queue_run_ok : forall ops q l, queue_inv q l ->
    (exists q' os l', queue_run q ops = Some (q', os) /\ queue_runs l ops os l' /\ queue_inv q' l' /\ (Forall granted_q ops -> ~ In MemoryError os)) \/
    (exists ops1 op ops2 os l1, ops = ops1 ++ op :: ops2 /\ queue_runs l ops1 os l1 /\ ~ queue_legal l1 op).
  Proof.
    induction ops as [|op ops IH]; intros q l I.
    - left. exists q, [], l. repeat split; auto. constructor.
    - assert (D : queue_legal l op \/ ~ queue_legal l op).
      { destruct op as [x b| |i x b]; cbn; [auto|destruct l; [right|left]; congruence|lia]. }
      destruct D as [D|D].
      2:{ right. exists [], op, ops, [], l. split; [reflexivity|]. split; [constructor|assumption]. }
      destruct (queue_step_ok q l op I D) as (q' & o & l' & E & Dd & I' & G).
      destruct (IH q' l' I') as [(q2 & os & l2 & E2 & R2 & I2 & G2)|(ops1 & op1 & ops2 & os & l1 & -> & R2 & L2)].
      + left. exists q2, (o :: os), l2. cbn [queue_run]. rewrite E, E2. split; [reflexivity|]. split; [econstructor; eauto|]. split; [assumption|].
        intros HG. inversion HG; subst. intros [Ho|Hin]; [apply G; auto|]. apply G2; auto.
      + right. exists (op :: ops1), op1, ops2, (o :: os), l1. split; [reflexivity|]. split; [econstructor; eauto|assumption].
  Qed.

  Lemma queue_init_inv n : 1 <= n -> queue_inv (@queue_init A n) [].
  Proof.
    intros H. exists [], (repeat None (N.to_nat n)). cbn [queue_init q_mem q_head q_tail map app].
    split; [reflexivity|]. split; [reflexivity|]. split; [reflexivity|]. unfold nlen. rewrite repeat_length. lia.
  Qed.
End P.

(* ---- strings ---- *)
Definition string_inv (s : ystring) (l : list N) : Prop :=
  exists n, ys_mem s = l ++ repeat 0 (S n) /\ ys_ptr s = nlen l /\ 16 <= nlen (ys_mem s).

Lemma repeat_app_n {A} (x : A) n m : repeat x n ++ repeat x m = repeat x (n + m).
Proof. symmetry. apply repeat_app. Qed.

Lemma string_store_ok l bs n : nlen bs <= N.of_nat n -> 16 <= nlen l + N.of_nat (S n) ->
  exists s', string_store (mkYstring (l ++ repeat 0 (S n)) (nlen l)) bs = Some s' /\ string_inv s' (l ++ bs).
Proof.
  intros H H16. unfold string_store. cbn [ys_mem ys_ptr]. rewrite nlen_app.
  assert (Hr : nlen (repeat 0 (S n)) = N.of_nat (S n)) by (unfold nlen; rewrite repeat_length; reflexivity).
  rewrite Hr. destruct (N.leb_spec (nlen l + nlen bs) (nlen l + N.of_nat (S n))); [|lia].
  eexists. split; [reflexivity|]. exists (n - length bs)%nat. cbn [ys_mem ys_ptr].
  replace (N.to_nat (nlen l)) with (length l) by (unfold nlen; lia).
  replace (N.to_nat (nlen l + nlen bs)) with (length l + length bs)%nat by (unfold nlen; lia).
  rewrite firstn_app, firstn_all, Nat.sub_diag. cbn [firstn]. rewrite app_nil_r.
  rewrite skipn_app. replace (skipn (length l + length bs) l) with (@nil N) by (symmetry; apply skipn_all2; lia).
  replace (length l + length bs - length l)%nat with (length bs) by lia. cbn [app].
  assert (Es : skipn (length bs) (repeat 0 (S n)) = repeat 0 (S (n - length bs))).
  { replace (S n) with (length bs + S (n - length bs))%nat by (unfold nlen in *; lia). rewrite repeat_app, skipn_app.
    replace (skipn (length bs) (repeat 0 (length bs))) with (@nil N) by (symmetry; apply skipn_all2; rewrite repeat_length; lia).
    rewrite repeat_length, Nat.sub_diag. reflexivity. }
  rewrite Es, <- app_assoc. split; [reflexivity|]. rewrite !nlen_app. split; [reflexivity|].
  unfold nlen in *. rewrite repeat_length in *. lia.
Qed.

Lemma string_extend_inv s l : string_inv s l -> exists s', string_extend s true = Some s' /\ string_inv s' l
  /\ nlen (ys_mem s') = 2 * nlen (ys_mem s) /\ ys_ptr s' = ys_ptr s.
Proof.
  intros (n & Em & Ep & H16). eexists. split; [reflexivity|]. cbn [ys_mem ys_ptr].
  assert (nlen (ys_mem s ++ repeat 0 (length (ys_mem s))) = 2 * nlen (ys_mem s)) by (unfold nlen; rewrite app_length, repeat_length; lia).
  split; [|auto]. exists (n + length (ys_mem s))%nat. cbn [ys_mem ys_ptr]. split; [|split; [assumption|lia]].
  rewrite Em at 1. rewrite <- app_assoc, repeat_app_n. reflexivity.
Qed.

Lemma string_put_ok s l bs b : string_inv s l -> nlen bs <= 4 ->
  (string_put s bs b = Some (s, MemoryError) /\ b = false) \/
  (exists s', string_put s bs b = Some (s', Done) /\ string_inv s' (l ++ bs)).
Proof.
  intros I Hb. unfold string_put, string_room.
  assert (X : forall s', string_inv s' l -> ys_ptr s' + 5 <= nlen (ys_mem s') ->
    exists s'', string_store s' bs = Some s'' /\ string_inv s'' (l ++ bs)).
  { intros [mem ptr] (n & Em & Ep & H16) Hc. cbn [ys_mem ys_ptr] in *. subst.
    rewrite nlen_app in *. assert (Hr : nlen (repeat 0 (S n)) = N.of_nat (S n)) by (unfold nlen; rewrite repeat_length; reflexivity).
    rewrite Hr in *. apply string_store_ok; lia. }
  destruct (N.ltb_spec (ys_ptr s + 5) (nlen (ys_mem s))).
  - destruct (X s I ltac:(lia)) as (s' & -> & I'). right. eauto.
  - destruct b; [|left; auto]. destruct (string_extend_inv s l I) as (s' & E & I' & Hn & Hp). rewrite E.
    destruct I as (n & Em & Ep & H16).
    assert (ys_ptr s <= nlen (ys_mem s)) by (rewrite Ep, Em, nlen_app; lia).
    destruct (X s' I' ltac:(lia)) as (s2 & -> & I2). right. eauto.
Qed.

Lemma join_room_ok len : forall fuel s l allocs, string_inv s l ->
  len + ys_ptr s < nlen (ys_mem s) + 16 * N.of_nat fuel ->
  (exists s', join_room fuel s len allocs = (s', false) /\ In false allocs /\ string_inv s' l) \/
  (exists s', join_room fuel s len allocs = (s', true) /\ string_inv s' l /\ len < nlen (ys_mem s') - ys_ptr s').
Proof.
  induction fuel as [|fuel IH]; intros s l allocs I Hf; cbn [join_room].
  - destruct (N.leb_spec (nlen (ys_mem s) - ys_ptr s) len); [exfalso; lia|]. right. eauto.
  - destruct (N.leb_spec (nlen (ys_mem s) - ys_ptr s) len); [|right; eauto].
    destruct (hd true allocs) eqn:Eh.
    + destruct (string_extend_inv s l I) as (s' & E & I' & Hn & Hp). rewrite E.
      destruct I as (n & Em & Ep & H16).
      destruct (IH s' l (tl allocs) I') as [(s2 & E2 & Hin & I2)|(s2 & E2 & I2 & H2)]; [lia|left|right; eauto].
      exists s2. split; [assumption|]. split; [|assumption]. destruct allocs; [destruct Hin|right; exact Hin].
    + left. exists s. cbn. split; [reflexivity|]. split; [|assumption]. destruct allocs; [discriminate|]. cbn in Eh. subst. left. reflexivity.
Qed.

Lemma string_join_ok s l bs allocs : string_inv s l ->
  (exists s', string_join s bs allocs = Some (s', MemoryError) /\ In false allocs /\ string_inv s' l) \/
  (exists s', string_join s bs allocs = Some (s', Done) /\ string_inv s' (l ++ bs)).
Proof.
  intros I. unfold string_join. destruct bs as [|b0 bs0]; [right; rewrite app_nil_r; eauto|].
  set (bs := b0 :: bs0).
  assert (Hp : ys_ptr s <= nlen (ys_mem s)). { destruct I as (n & Em & Ep & _). rewrite Ep, Em, nlen_app. lia. }
  destruct (join_room_ok (nlen bs) (S (length bs)) s l allocs I) as [(s' & E & Hin & I')|(s' & E & I' & H')].
  - unfold nlen in *. lia.
  - rewrite E. left. eauto.
  - rewrite E. right. destruct s' as [mem ptr]. destruct I' as (n & Em & Ep & H16). cbn [ys_mem ys_ptr] in *. subst.
    assert (Hr : nlen (repeat 0 (S n)) = N.of_nat (S n)) by (unfold nlen; rewrite repeat_length; reflexivity).
    rewrite nlen_app, Hr in *.
    destruct (string_store_ok l bs n) as (s2 & E2 & I2); [lia|lia|]. rewrite E2. eauto.
Qed.

Lemma string_step_ok s l op : string_inv s l -> string_op_ok op ->
  exists s' o l', string_step s op = Some (s', o) /\ string_does l op o l' /\ string_inv s' l'.
Proof.
  intros I Ho. destruct op as [bs b|bs allocs|]; cbn [string_step].
  - destruct (string_put_ok s l bs b I Ho) as [[-> ->]|(s' & -> & I')]; eexists _, _, _; (split; [reflexivity|]).
    + split; [apply std_put_full|assumption].
    + split; [apply std_put|assumption].
  - destruct (string_join_ok s l bs allocs I) as [(s' & -> & Hin & I')|(s' & -> & I')]; eexists _, _, _; (split; [reflexivity|]).
    + split; [apply std_join_full; assumption|assumption].
    + split; [apply std_join|assumption].
  - eexists _, _, _. split; [reflexivity|]. split; [apply std_clear|]. destruct I as (n & Em & Ep & H16).
    exists (length (ys_mem s) - 1)%nat. cbn [string_clear ys_mem ys_ptr app]. split; [f_equal; unfold nlen in *; lia|].
    split; [reflexivity|]. unfold nlen in *. rewrite repeat_length. lia.
Qed.

Lemma string_run_ok : forall ops s l, string_inv s l -> Forall string_op_ok ops ->
  exists s' os l', string_run s ops = Some (s', os) /\ string_runs l ops os l' /\ string_inv s' l'.
Proof.
  induction ops as [|op ops IH]; intros s l I HF.
  - exists s, [], l. repeat split; auto. constructor.
  - inversion HF; subst. destruct (string_step_ok s l op I) as (s' & o & l' & E & D & I'); [assumption|].
    destruct (IH s' l' I') as (s2 & os & l2 & E2 & R2 & I2); [assumption|].
    exists s2, (o :: os), l2. cbn [string_run]. rewrite E, E2. split; [reflexivity|]. split; [econstructor; eauto|assumption].
Qed.

Lemma string_init_inv : string_inv string_init [].
Proof. exists 15%nat. cbn. repeat split. lia. Qed.

(* the C string read back from the block *)
Lemma string_inv_c s l : string_inv s l -> (forall b, In b l -> b <> 0) -> c_string (ys_mem s) = l.
Proof.
  intros (n & Em & _ & _) Hz. rewrite Em. clear Em s.
  induction l as [|b l IH]; [reflexivity|]. cbn [app c_string].
  destruct (N.eqb_spec b 0); [exfalso; apply (Hz b); [left; reflexivity|assumption]|]. f_equal. apply IH. intros; apply Hz. right. assumption.
Qed.
Lemma string_inv_bytes s l : string_inv s l -> firstn (N.to_nat (ys_ptr s)) (ys_mem s) = l /\ nth_error (ys_mem s) (N.to_nat (ys_ptr s)) = Some 0.
Proof.
  intros (n & -> & -> & _). replace (N.to_nat (nlen l)) with (length l) by (unfold nlen; lia). split.
  - rewrite firstn_app, firstn_all, Nat.sub_diag. cbn. apply app_nil_r.
  - rewrite nth_error_app2, Nat.sub_diag by lia. reflexivity.
Qed.

Lemma stack_inv_holds {A} (s : stack A) l : stack_inv s l -> stack_holds s l.
Proof.
  intros (junk & Em & Et & _). split; [assumption|]. rewrite Em, firstn_app, map_length, Nat.sub_diag. cbn [firstn].
  rewrite app_nil_r. apply firstn_all2. rewrite map_length. lia.
Qed.
Lemma queue_inv_holds {A} (q : queue A) l : queue_inv q l -> queue_holds q l.
Proof.
  intros (pre & junk & Em & Eh & Et & _). split; [lia|]. rewrite Em, Eh. replace (N.to_nat (nlen pre)) with (length pre) by (unfold nlen; lia).
  rewrite skipn_app, skipn_all, Nat.sub_diag. cbn [skipn app]. rewrite firstn_app, map_length, Nat.sub_diag. cbn [firstn].
  rewrite app_nil_r. apply firstn_all2. rewrite map_length. lia.
Qed.
Lemma stack_run_all {A} sizeof (ops : list (stack_op A)) :
  (exists s os l, stack_run sizeof stack_init ops = Some (s, os) /\ stack_runs [] ops os l /\ stack_holds s l) \/
  (exists ops1 os ops2, ops = ops1 ++ SPop :: ops2 /\ stack_runs [] ops1 os []).
Proof.
  destruct (stack_run_ok sizeof ops _ _ stack_init_inv) as [(s & os & l & E & R & I)|(_ & X)]; [left|right; exact X].
  exists s, os, l. auto using stack_inv_holds.
Qed.
Lemma stack_run_no_error {A} sizeof (ops : list (stack_op A)) s os : Forall granted_s ops ->
  (16 + 2 * nlen ops) * sizeof < STACK_BYTES_LIMIT ->
  stack_run sizeof stack_init ops = Some (s, os) -> ~ In MemoryError os.
Proof. intros G B E. eapply (stack_no_error sizeof ops stack_init [] 16 stack_init_inv); try eassumption; vm_compute; discriminate. Qed.
Lemma queue_run_all {A} size (ops : list (queue_op A)) : 1 <= size ->
  (exists q os l, queue_run (queue_init size) ops = Some (q, os) /\ queue_runs [] ops os l /\ queue_holds q l /\
     (Forall granted_q ops -> ~ In MemoryError os)) \/
  (exists ops1 op ops2 os l1, ops = ops1 ++ op :: ops2 /\ queue_runs [] ops1 os l1 /\ ~ queue_legal l1 op).
Proof.
  intros H. destruct (queue_run_ok ops _ _ (queue_init_inv size H)) as [(q & os & l & E & R & I & G)|X]; [left|right; exact X].
  exists q, os, l. auto using queue_inv_holds.
Qed.
Lemma string_run_all ops : Forall string_op_ok ops ->
  exists s os l, string_run string_init ops = Some (s, os) /\ string_runs [] ops os l /\
    firstn (N.to_nat (ys_ptr s)) (ys_mem s) = l /\ nth_error (ys_mem s) (N.to_nat (ys_ptr s)) = Some 0.
Proof.
  intros H. destruct (string_run_ok ops _ _ string_init_inv H) as (s & os & l & E & R & I).
  exists s, os, l. destruct (string_inv_bytes _ _ I). auto.
Qed.
