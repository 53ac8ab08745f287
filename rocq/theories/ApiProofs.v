From Verif Require Import Base Utf8Spec ReaderModel ReaderSpec ReaderProofs Utf8Lemmas ApiModel ApiSpec.

Lemma skipn_skipn {A} (x y : nat) (l : list A) : skipn x (skipn y l) = skipn (x + y) l.
Proof.
  revert l. induction y as [|y IH]; intros l; [rewrite Nat.add_0_r; reflexivity|].
  rewrite Nat.add_succ_r. destruct l; [rewrite !skipn_nil; reflexivity|]. cbn [skipn]. apply IH.
Qed.

(* ---- string read handler ---- *)
Lemma string_read_spec s n : sr_cur s <= nlen (sr_data s) ->
  let bs := firstn (N.to_nat n) (skipn (N.to_nat (sr_cur s)) (sr_data s)) in
  string_read s n = (bs, mkSread (sr_data s) (sr_cur s + nlen bs)).
Proof.
  intros H bs. unfold string_read. destruct s as [data cur]. cbn [sr_data sr_cur] in *.
  assert (Hl : nlen (skipn (N.to_nat cur) data) = nlen data - cur) by (unfold nlen in *; rewrite skipn_length; lia).
  destruct (N.eqb_spec cur (nlen data)) as [E|E].
  - assert (Hs : skipn (N.to_nat cur) data = []) by (apply nlen_0; lia).
    subst bs. rewrite Hs, firstn_nil. change (nlen []) with 0. rewrite N.add_0_r. reflexivity.
  - destruct (N.ltb_spec (nlen data - cur) n).
    + assert (Hb : bs = skipn (N.to_nat cur) data) by (subst bs; apply firstn_all2; unfold nlen in *; lia).
      rewrite Hb, Hl. f_equal. apply firstn_all2. unfold nlen in *. lia.
    + assert (Hb : nlen bs = n) by (subst bs; unfold nlen in *; rewrite firstn_length; lia).
      rewrite Hb. reflexivity.
Qed.

Lemma string_reads_spec : forall sizes s, sr_cur s <= nlen (sr_data s) ->
  let (blocks, s') := string_reads s sizes in
  concat blocks ++ skipn (N.to_nat (sr_cur s')) (sr_data s') = skipn (N.to_nat (sr_cur s)) (sr_data s) /\
  sr_data s' = sr_data s /\ sr_cur s' <= nlen (sr_data s) /\
  Forall2 (fun bs n => nlen bs <= n) blocks sizes.
Proof.
  induction sizes as [|n sizes IH]; intros s Hc; cbn [string_reads].
  - repeat split; auto.
  - rewrite string_read_spec by assumption.
    set (bs := firstn (N.to_nat n) (skipn (N.to_nat (sr_cur s)) (sr_data s))).
    assert (Hbs : nlen bs <= n /\ sr_cur s + nlen bs <= nlen (sr_data s)).
    { subst bs. unfold nlen in *. rewrite firstn_length, skipn_length. lia. }
    specialize (IH (mkSread (sr_data s) (sr_cur s + nlen bs)) (proj2 Hbs)). cbn [sr_data sr_cur] in IH.
    destruct (string_reads _ sizes) as [rest s2]. destruct IH as (I1 & I2 & I3 & I4).
    split; [|split; [assumption|split; [assumption|constructor; [apply Hbs|assumption]]]].
    cbn [concat]. rewrite <- app_assoc, I1.
    replace (N.to_nat (sr_cur s + nlen bs)) with (length bs + N.to_nat (sr_cur s))%nat by (unfold nlen; lia).
    rewrite <- skipn_skipn. unfold bs. set (k := skipn (N.to_nat (sr_cur s)) (sr_data s)).
    rewrite firstn_length. destruct (Nat.min_spec (N.to_nat n) (length k)) as [[_ ->]|[Hle ->]].
    + apply firstn_skipn.
    + rewrite firstn_all2 by lia. rewrite skipn_all. apply app_nil_r.
Qed.

Lemma string_reads_whole data sizes :
  let (blocks, s') := string_reads (sread_init data) sizes in
  concat blocks ++ skipn (N.to_nat (sr_cur s')) data = data /\ sr_cur s' <= nlen data /\
  Forall2 (fun bs n => nlen bs <= n) blocks sizes.
Proof.
  pose proof (string_reads_spec sizes (sread_init data) (N.le_0_l _)) as H.
  destruct (string_reads _ sizes) as [blocks s']. cbn [sread_init sr_data sr_cur] in H.
  destruct H as (H1 & H2 & H3 & H4). rewrite H2 in H1. cbn in H1. auto.
Qed.

(* zero bytes are delivered only when nothing is left (or nothing was asked) *)
Lemma string_read_eof s n : sr_cur s <= nlen (sr_data s) -> 0 < n ->
  fst (string_read s n) = [] -> sr_cur s = nlen (sr_data s).
Proof.
  intros Hc Hn. rewrite string_read_spec by assumption. cbn [fst]. intros H.
  assert (L : nlen (firstn (N.to_nat n) (skipn (N.to_nat (sr_cur s)) (sr_data s))) = 0) by (rewrite H; reflexivity).
  unfold nlen in *. rewrite firstn_length, skipn_length in L. lia.
Qed.

(* it is the handler of the reader model with nothing planned *)
Lemma string_read_is_handler s n : sr_cur s <= nlen (sr_data s) ->
  handler_read (skipn (N.to_nat (sr_cur s)) (sr_data s)) [] n =
  Some (fst (string_read s n), skipn (N.to_nat (sr_cur (snd (string_read s n)))) (sr_data s), []).
Proof.
  intros Hc. rewrite string_read_spec by assumption. cbn [fst snd sr_cur handler_read].
  set (k := skipn (N.to_nat (sr_cur s)) (sr_data s)).
  replace (N.to_nat (sr_cur s + nlen (firstn (N.to_nat n) k))) with (length (firstn (N.to_nat n) k) + N.to_nat (sr_cur s))%nat by (unfold nlen; lia).
  rewrite <- skipn_skipn. fold k. rewrite firstn_length.
  destruct (Nat.min_spec (N.to_nat n) (length k)) as [[_ ->]|[Hle ->]]; [reflexivity|].
  rewrite skipn_all. rewrite (skipn_all2 k) by lia. reflexivity.
Qed.

(* ---- string write handler ---- *)
Definition sw_inv (mem0 : list N) (out : list N) (s : swrite) : Prop :=
  nlen (sw_mem s) = nlen mem0 /\ sw_written s = N.min (nlen mem0) (nlen out) /\
  sw_mem s = firstn (N.to_nat (nlen mem0)) out ++ skipn (length out) mem0.

Lemma firstn_min {A} (l : list A) n m : (Nat.min (length l) m = Nat.min (length l) n)%nat -> firstn n l = firstn m l.
Proof.
  intros H. destruct (Nat.le_gt_cases (length l) m), (Nat.le_gt_cases (length l) n).
  - rewrite !firstn_all2 by lia. reflexivity.
  - rewrite Nat.min_l in H by lia. lia.
  - lia.
  - f_equal. lia.
Qed.

Lemma mem_store_at mem0 out bs : nlen out + nlen bs <= nlen mem0 ->
  mem_store (firstn (N.to_nat (nlen mem0)) out ++ skipn (length out) mem0) (nlen out) bs =
  Some (firstn (N.to_nat (nlen mem0)) (out ++ bs) ++ skipn (length (out ++ bs)) mem0).
Proof.
  intros H. unfold mem_store.
  rewrite (firstn_all2 out) by (unfold nlen in *; lia). rewrite (firstn_all2 (out ++ bs)) by (unfold nlen in *; rewrite app_length; lia).
  assert (L : nlen (out ++ skipn (length out) mem0) = nlen mem0) by (unfold nlen in *; rewrite app_length, skipn_length; lia).
  rewrite L. destruct (N.leb_spec (nlen out + nlen bs) (nlen mem0)); [|lia].
  f_equal. rewrite firstn_app. replace (N.to_nat (nlen out)) with (length out) by (unfold nlen; lia).
  rewrite firstn_all, Nat.sub_diag. cbn [firstn]. rewrite app_nil_r, <- app_assoc. f_equal. f_equal.
  replace (N.to_nat (nlen out + nlen bs)) with (length out + length bs)%nat by (unfold nlen; lia).
  rewrite skipn_app. rewrite (skipn_all2 out) by lia. cbn [app].
  replace (length out + length bs - length out)%nat with (length bs) by lia.
  rewrite skipn_skipn. rewrite app_length. f_equal. lia.
Qed.

Lemma string_write_ok mem0 out s bs : nlen mem0 < 18446744073709551616 -> sw_inv mem0 out s ->
  exists s', string_write s bs = Some (s', (nlen out + nlen bs <=? nlen mem0) || (nlen bs =? 0)) /\
    sw_inv mem0 (out ++ bs) s'.
Proof.
  intros Hmax (I1 & I2 & I3). unfold string_write, size_sub. rewrite I1, I2.
  destruct (N.leb_spec (N.min (nlen mem0) (nlen out)) (nlen mem0)); [|lia].
  destruct (N.le_gt_cases (nlen mem0) (nlen out)) as [Hfull|Hroom].
  - (* already full *)
    rewrite N.min_l by assumption. rewrite N.sub_diag.
    assert (Em : sw_mem s = firstn (N.to_nat (nlen mem0)) out).
    { rewrite I3. rewrite (skipn_all2 mem0) by (unfold nlen in *; lia). apply app_nil_r. }
    assert (Hst : mem_store (sw_mem s) (nlen mem0) [] = Some (sw_mem s)).
    { unfold mem_store. change (nlen []) with 0. rewrite N.add_0_r, I1. destruct (N.leb_spec (nlen mem0) (nlen mem0)); [|lia].
      f_equal. cbn [app]. apply firstn_skipn. }
    assert (Em' : sw_mem s = firstn (N.to_nat (nlen mem0)) (out ++ bs) ++ skipn (length (out ++ bs)) mem0).
    { rewrite (skipn_all2 mem0) by (unfold nlen in *; rewrite app_length; lia). rewrite app_nil_r, Em.
      rewrite firstn_app. replace (N.to_nat (nlen mem0) - length out)%nat with 0%nat by (unfold nlen in *; lia).
      cbn [firstn]. rewrite app_nil_r. reflexivity. }
    destruct (N.ltb_spec 0 (nlen bs)).
    + replace (firstn (N.to_nat 0) bs) with (@nil N) by reflexivity. rewrite Hst.
      destruct (N.leb_spec (nlen out + nlen bs) (nlen mem0)); [lia|]. destruct (N.eqb_spec (nlen bs) 0); [lia|].
      eexists. split; [reflexivity|]. split; [exact I1|]. split; [cbn [sw_written]; rewrite nlen_app; lia|]. exact Em'.
    + assert (bs = []) by (apply nlen_0; lia). subst bs. rewrite Hst. change (nlen []) with 0.
      rewrite orb_true_r. eexists. split; [reflexivity|]. split; [exact I1|]. split; [cbn [sw_written]; rewrite nlen_app; change (nlen []) with 0; lia|]. exact Em'.
  - rewrite N.min_r by lia.
    destruct (N.ltb_spec (nlen mem0 - nlen out) (nlen bs)) as [Hov|Hfit].
    + set (k := N.to_nat (nlen mem0 - nlen out)).
      rewrite I3, mem_store_at by (unfold nlen in *; rewrite firstn_length; lia).
      destruct (N.leb_spec (nlen out + nlen bs) (nlen mem0)); [lia|]. destruct (N.eqb_spec (nlen bs) 0); [lia|].
      eexists. split; [reflexivity|]. unfold sw_inv. cbn [sw_mem sw_written].
      assert (Eq : firstn (N.to_nat (nlen mem0)) (out ++ firstn k bs) ++ skipn (length (out ++ firstn k bs)) mem0 =
                   firstn (N.to_nat (nlen mem0)) (out ++ bs) ++ skipn (length (out ++ bs)) mem0).
      { rewrite !(skipn_all2 mem0) by (subst k; unfold nlen in *; rewrite app_length, ?firstn_length; lia). f_equal.
        rewrite !firstn_app. f_equal. rewrite firstn_firstn. f_equal. subst k. unfold nlen in *. lia. }
      rewrite Eq. split; [|split; [rewrite nlen_app; lia|reflexivity]].
      rewrite nlen_app. unfold nlen in *. rewrite firstn_length, skipn_length, app_length. lia.
    + rewrite I3, mem_store_at by lia.
      destruct (N.leb_spec (nlen out + nlen bs) (nlen mem0)); [|lia]. cbn [orb].
      eexists. split; [reflexivity|]. split; [|split; [cbn [sw_written]; rewrite nlen_app; lia|reflexivity]].
      cbn [sw_mem]. rewrite nlen_app. unfold nlen in *. rewrite firstn_length, skipn_length, app_length. lia.
Qed.

Lemma string_writes_ok mem0 : nlen mem0 < 18446744073709551616 -> forall blocks out s, sw_inv mem0 out s ->
  exists s', string_writes s blocks = Some (s', fits (nlen mem0) (nlen out) blocks) /\ sw_inv mem0 (out ++ concat blocks) s'.
Proof.
  intros Hmax. induction blocks as [|bs blocks IH]; intros out s I; cbn [string_writes fits concat].
  - exists s. rewrite app_nil_r. auto.
  - destruct (string_write_ok mem0 out s bs Hmax I) as (s1 & E1 & I1). rewrite E1.
    destruct (IH _ _ I1) as (s2 & E2 & I2). rewrite E2, nlen_app. exists s2. split; [reflexivity|]. rewrite app_assoc. exact I2.
Qed.

Lemma sw_inv_init mem0 : sw_inv mem0 [] (swrite_init mem0).
Proof.
  unfold sw_inv, swrite_init. cbn [sw_mem sw_written length skipn]. change (nlen []) with 0. rewrite firstn_nil. repeat split. lia.
Qed.

Lemma string_writes_all mem blocks : nlen mem < 18446744073709551616 ->
  string_writes (swrite_init mem) blocks =
  Some (mkSwrite (overlay mem (concat blocks)) (N.min (nlen mem) (nlen (concat blocks))), fits (nlen mem) 0 blocks).
Proof.
  intros H. destruct (string_writes_ok mem H blocks [] _ (sw_inv_init mem)) as ([m w] & E & I1 & I2 & I3).
  cbn [app sw_mem sw_written] in *. rewrite E. change (nlen (@nil N)) with 0. subst w. repeat f_equal.
  rewrite I3. unfold overlay. replace (N.to_nat (nlen mem)) with (length mem) by (unfold nlen; lia). reflexivity.
Qed.

Lemma overlay_len mem out : nlen (overlay mem out) = nlen mem.
Proof. unfold overlay. rewrite nlen_app. unfold nlen. rewrite firstn_length, skipn_length. lia. Qed.

(* ---- check_utf8 ---- *)
Lemma check_utf8_enc c rest fuel : c < 0x200000 ->
  check_utf8 (S fuel) (utf8_enc c ++ rest) = check_utf8 fuel rest.
Proof.
  intros Hc. pose proof (utf8_enc_bytes c Hc) as HB.
  unfold utf8_enc in *.
  destruct (N.ltb_spec c 0x80); [|destruct (N.ltb_spec c 0x800); [|destruct (N.ltb_spec c 0x10000)]];
  unfold byte_ok in HB;
  repeat match goal with H : Forall _ (_ :: _) |- _ => inversion H; clear H; subst end;
  cbn [app]; cbn [check_utf8];
  rewrite utf8_width_spec, utf8_lead_value_spec by assumption;
  repeat match goal with |- context [?a <? ?b] =>
    match a with context [if _ then _ else _] => fail 1 | nlen _ => fail 1 | _ => destruct (N.ltb_spec a b); try lia end end;
  rewrite !nlen_cons, ?nlen_nil;
  match goal with |- context [?a =? 0] => replace (a =? 0) with false by lia end;
  match goal with |- context [?a <? ?b] => replace (a <? b) with false by lia end;
  change (N.to_nat (1-1)) with 0%nat; change (N.to_nat (2-1)) with 1%nat;
  change (N.to_nat (3-1)) with 2%nat; change (N.to_nat (4-1)) with 3%nat;
  cbn [utf8_trail];
  rewrite ?trailing_spec by assumption;
  repeat (match goal with |- context [negb ((0x80 <=? ?a) && (?a <? 0xC0))] =>
    replace (negb ((0x80 <=? a) && (a <? 0xC0))) with false by lia end);
  rewrite ?land_3f, ?shl6;
  match goal with |- context [if negb ?b then _ else _] => replace (negb b) with false by lia end;
  reflexivity.
Qed.

Lemma check_utf8_inv fuel bs : Forall byte_ok bs -> bs <> [] -> check_utf8 (S fuel) bs = Some true ->
  exists c rest, c < 0x200000 /\ bs = utf8_enc c ++ rest.
Proof.
  intros HB Hne H. destruct bs as [|b0 bs]; [congruence|]. cbn [check_utf8] in H.
  inversion HB as [|? ? Hb0 HB1]; subst. unfold byte_ok in *.
  rewrite utf8_width_spec, utf8_lead_value_spec in H by assumption. revert H.
  destruct (N.ltb_spec b0 0x80); [|destruct (N.ltb_spec b0 0xC0); [discriminate|
    destruct (N.ltb_spec b0 0xE0); [|destruct (N.ltb_spec b0 0xF0); [|destruct (N.ltb_spec b0 0xF8);[|discriminate]]]]];
  match goal with |- context [?a =? 0] => replace (a =? 0) with false by reflexivity end;
  match goal with |- context [nlen ?l <? ?b] => destruct (N.ltb_spec (nlen l) b); [discriminate|] end;
  change (N.to_nat (1-1)) with 0%nat; change (N.to_nat (2-1)) with 1%nat;
  change (N.to_nat (3-1)) with 2%nat; change (N.to_nat (4-1)) with 3%nat;
  cbn [utf8_trail];
  rewrite ?nlen_cons in *;
  repeat (match goal with |- context [match ?l with [] => None | _ :: _ => _ end] =>
    destruct l as [|? ?]; [rewrite ?nlen_cons, ?nlen_nil in *; try lia|] end;
    inversion HB1 as [|? ? ? HB2]; subst; clear HB1; rename HB2 into HB1; rewrite trailing_spec by assumption;
    match goal with |- context [negb ?b] => destruct b eqn:?; cbn [negb]; [|discriminate] end);
  rewrite ?land_3f, ?shl6;
  match goal with |- context [if negb ?b then _ else _] => destruct b eqn:?; cbn [negb]; [|discriminate] end;
  intros _.
  - exists b0, bs. split; [lia|]. unfold utf8_enc. destruct (N.ltb_spec b0 0x80); [reflexivity|lia].
  - match goal with H : Forall _ [b0] |- _ => idtac | H : Forall _ (b0 :: ?x :: ?l) |- _ =>
      exists ((b0 - 0xC0) * 64 + x mod 64), l end. split; [lia|]. unfold utf8_enc.
    repeat match goal with |- context [?c <? ?b] => destruct (N.ltb_spec c b); try lia end.
    cbn [app]. repeat (apply f_equal2; [lia|]). reflexivity.
  - match goal with H : Forall _ (b0 :: ?x :: ?y :: ?l) |- _ =>
      exists (((b0 - 0xE0) * 64 + x mod 64) * 64 + y mod 64), l end. split; [lia|]. unfold utf8_enc.
    repeat match goal with |- context [?c <? ?b] => destruct (N.ltb_spec c b); try lia end.
    cbn [app]. repeat (apply f_equal2; [lia|]). reflexivity.
  - match goal with H : Forall _ (b0 :: ?x :: ?y :: ?z :: ?l) |- _ =>
      exists ((((b0 - 0xF0) * 64 + x mod 64) * 64 + y mod 64) * 64 + z mod 64), l end. split; [lia|]. unfold utf8_enc.
    repeat match goal with |- context [?c <? ?b] => destruct (N.ltb_spec c b); try lia end.
    cbn [app]. repeat (apply f_equal2; [lia|]). reflexivity.
Qed.

Lemma utf8_trail_some : forall n k v l, (n <= length l)%nat -> utf8_trail n k v l <> None.
Proof.
  induction n as [|n IHn]; intros k v l Hn; cbn [utf8_trail]; [discriminate|].
  destruct l as [|x l]; [cbn in Hn; lia|].
  destruct (N.land x 0xC0 =? 0x80); cbn [negb]; [|discriminate].
  apply IHn. cbn in Hn. lia.
Qed.

Lemma check_utf8_total fuel : forall bs, (length bs <= fuel)%nat -> exists b, check_utf8 fuel bs = Some b.
Proof.
  induction fuel as [|fuel IH]; intros bs Hl; [destruct bs; [eexists; reflexivity|cbn in Hl; lia]|].
  destruct bs as [|b0 bs]; [eexists; reflexivity|]. cbn [check_utf8].
  destruct (N.eqb_spec (utf8_width b0) 0); [eexists; reflexivity|].
  destruct (N.ltb_spec (nlen (b0 :: bs)) (utf8_width b0)); [eexists; reflexivity|].
  pose proof (utf8_trail_some (N.to_nat (utf8_width b0 - 1)) 1 (utf8_lead_value b0) bs) as X.
  destruct (utf8_trail _ _ _ _) as [[?|v]|]; [eexists; reflexivity| |exfalso; apply X; [rewrite nlen_cons in *; unfold nlen in *; lia|reflexivity]].
  destruct (negb _); [eexists; reflexivity|]. apply IH. rewrite skipn_length. cbn [length] in *. lia.
Qed.

Lemma check_utf8_fuel f1 : forall f2 bs, (length bs <= f1)%nat -> (length bs <= f2)%nat -> check_utf8 f1 bs = check_utf8 f2 bs.
Proof.
  induction f1 as [|f1 IH]; intros f2 bs H1 H2; [destruct bs; [destruct f2; reflexivity|cbn in H1; lia]|].
  destruct bs as [|b0 bs]; [destruct f2; reflexivity|]. destruct f2 as [|f2]; [cbn in H2; lia|]. cbn [check_utf8].
  destruct (N.eqb_spec (utf8_width b0) 0); [reflexivity|]. destruct (_ <? _); [reflexivity|].
  destruct (utf8_trail _ _ _ _) as [[?|v]|]; try reflexivity. destruct (negb _); [reflexivity|].
  apply IH; rewrite skipn_length; cbn [length] in *; lia.
Qed.

Lemma utf8_accepted_spec bs : Forall byte_ok bs ->
  exists b, utf8_accepted bs = Some b /\
    (b = true <-> exists cs, bs = utf8 cs /\ Forall (fun c => c < 0x200000) cs).
Proof.
  intros HB. unfold utf8_accepted. destruct (check_utf8_total (length bs) bs (le_n _)) as [b Eb]. exists b. split; [assumption|].
  split.
  - intros ->. remember (length bs) as n. revert bs Heqn HB Eb.
    induction n as [n IH] using lt_wf_ind. intros bs Hn HB Eb. destruct bs as [|b0 bs].
    + exists []. split; [reflexivity|constructor].
    + destruct n as [|n]; [discriminate|].
      destruct (check_utf8_inv n (b0 :: bs) HB ltac:(discriminate) Eb) as (c & rest & Hc & E).
      rewrite E in *. rewrite check_utf8_enc in Eb by assumption.
      assert (Hl : (length rest <= n)%nat).
      { rewrite app_length in Hn. pose proof (utf8_enc_len c). unfold nlen in *. lia. }
      rewrite (check_utf8_fuel n (length rest)) in Eb by lia.
      apply Forall_app in HB. destruct (IH (length rest) ltac:(lia) rest eq_refl (proj2 HB) Eb) as (cs & -> & Hcs).
      exists (c :: cs). split; [reflexivity|]. constructor; assumption.
  - intros (cs & -> & Hcs). clear HB. assert (X : forall fuel, (length (utf8 cs) <= fuel)%nat -> check_utf8 fuel (utf8 cs) = Some true).
    { clear Eb. induction Hcs as [|c cs Hc Hcs IH]; intros fuel Hf; [destruct fuel; reflexivity|].
      change (utf8 (c :: cs)) with (utf8_enc c ++ utf8 cs) in *. rewrite app_length in Hf. pose proof (utf8_enc_len c).
      destruct fuel as [|fuel]; [unfold nlen in *; lia|]. rewrite check_utf8_enc by assumption. apply IH. unfold nlen in *; lia. }
    rewrite X in Eb by lia. congruence.
Qed.

Lemma check_utf8_surrogate : exists bs, utf8_accepted bs = Some true /\
  ~ exists cs, bs = utf8 cs /\ Forall scalar_value cs.
Proof.
  exists [0xED; 0xA0; 0x80]. split; [vm_compute; reflexivity|].
  intros (cs & E & H). destruct cs as [|c cs]; [discriminate|]. inversion H as [|? ? Hc Hcs]; subst.
  change (utf8 (c :: cs)) with (utf8_enc c ++ utf8 cs) in E. unfold scalar_value in Hc. unfold utf8_enc in E.
  destruct (N.ltb_spec c 0x80); [|destruct (N.ltb_spec c 0x800); [|destruct (N.ltb_spec c 0x10000)]]; cbn [app] in E; injection E; intros; lia.
Qed.

Lemma string_read_eof_iff data sizes n : 0 < n ->
  let s := snd (string_reads (sread_init data) sizes) in
  fst (string_read s n) = [] <-> concat (fst (string_reads (sread_init data) sizes)) = data.
Proof.
  intros Hn. pose proof (string_reads_spec sizes (sread_init data) (N.le_0_l _)) as H.
  destruct (string_reads _ sizes) as [blocks s']. cbn [fst snd sread_init sr_data sr_cur] in *.
  destruct H as (H1 & H2 & H3 & H4). rewrite H2 in H1. cbn [N.to_nat skipn] in H1.
  split; intros E.
  - apply string_read_eof in E; [|rewrite H2; assumption|assumption]. rewrite E, H2 in H1.
    rewrite skipn_all2 in H1 by (unfold nlen; lia). rewrite app_nil_r in H1. assumption.
  - rewrite <- E in H1 at 2. rewrite <- (app_nil_r (concat blocks)) in H1 at 2. apply app_inv_head in H1. rename H1 into E0.
    rewrite string_read_spec by (rewrite H2; assumption). cbn [fst]. rewrite H2, E0. apply firstn_nil.
Qed.
