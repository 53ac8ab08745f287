(* Proofs about the reader model. *)
From Verif Require Import Base Utf8Spec ReaderModel Utf8Lemmas Utf16Lemmas ReaderSpec.

Lemma Forall_skipn {A} (P : A -> Prop) n l : Forall P l -> Forall P (skipn n l).
Proof. revert l. induction n; intros l H; [exact H|]. destruct l; [constructor|]. inversion H; subst. cbn. auto. Qed.
Lemma Forall_firstn {A} (P : A -> Prop) n l : Forall P l -> Forall P (firstn n l).
Proof. revert l. induction n; intros l H; [constructor|]. destruct l; [constructor|]. inversion H; subst. cbn. constructor; auto. Qed.
Lemma nlen_firstn {A} n (l : list A) : nlen (firstn (N.to_nat n) l) = N.min n (nlen l).
Proof. unfold nlen. rewrite firstn_length. lia. Qed.
Lemma nlen_skipn {A} n (l : list A) : nlen (skipn (N.to_nat n) l) = nlen l - n.
Proof. unfold nlen. rewrite skipn_length. lia. Qed.

(* ---- one character ---- *)

Lemma utf8_width_le4 o : utf8_width o <= 4.
Proof. unfold utf8_width. repeat (destruct (_ =? _)); lia. Qed.

Lemma decode_utf8_lt eof raw v w : decode_utf8 eof raw = Some (DChar v w) -> 1 <= w <= 4 /\ w <= nlen raw.
Proof.
  unfold decode_utf8. destruct raw as [|o raw]; [discriminate|].
  pose proof (utf8_width_le4 o).
  destruct (N.eqb_spec (utf8_width o) 0); [discriminate|].
  destruct (N.ltb_spec (nlen (o :: raw)) (utf8_width o)); [destruct eof; discriminate|].
  destruct (utf8_trail _ _ _ _) as [[[k bad]|x]|]; [discriminate| |discriminate].
  destruct (negb _); [discriminate|]. destruct (_ || _); [discriminate|].
  intros E; injection E; intros; subst. lia.
Qed.

Lemma decode_utf16_lt be eof raw v w : decode_utf16 be eof raw = Some (DChar v w) -> 1 <= w <= 4 /\ w <= nlen raw.
Proof.
  unfold decode_utf16. destruct raw as [|b0 [|b1 raw]]; [destruct eof; discriminate..|].
  rewrite !nlen_cons.
  destruct (_ =? _); [discriminate|]. destruct (_ =? _).
  - destruct raw as [|b2 [|b3 raw]]; [destruct eof; discriminate..|]. rewrite !nlen_cons.
    destruct (negb _); [discriminate|]. intros E; injection E; intros; subst. lia.
  - intros E; injection E; intros; subst. lia.
Qed.

Lemma utf8_trail_app n k v bs more r : utf8_trail n k v bs = Some r -> utf8_trail n k v (bs ++ more) = Some r.
Proof.
  revert k v bs. induction n; intros k v bs; cbn [utf8_trail]; [auto|].
  destruct bs as [|o bs]; [discriminate|]. cbn [app].
  destruct (negb _); [auto|]. apply IHn.
Qed.
Lemma utf8_trail_some n k v bs : (n <= length bs)%nat -> utf8_trail n k v bs <> None.
Proof.
  revert k v bs. induction n; intros k v bs H; cbn [utf8_trail]; [discriminate|].
  destruct bs as [|o bs]; [cbn in H; lia|].
  destruct (negb _); [discriminate|]. apply IHn. cbn in H. lia.
Qed.

Definition real_enc (e : encoding) : Prop := e <> AnyEnc.

(* Looking at more input does not change a verdict already reached. *)
Lemma decode_one_ext e eof raw more r : real_enc e -> raw <> [] ->
  decode_one e eof raw = Some r -> r <> DIncomplete -> (eof = true -> more = []) ->
  decode_one e true (raw ++ more) = Some r.
Proof.
  intros He Hraw H Hr Hm.
  destruct eof; [rewrite (Hm eq_refl), app_nil_r; exact H|]. clear Hm.
  revert H. unfold decode_one.
  assert (HH : forall (f : bool -> list N -> option dres),
     (forall r0, f false raw = Some r0 -> r0 <> DIncomplete -> f true (raw ++ more) = Some r0) ->
     match f false raw with
     | Some (DChar value _) => if char_allowed value then f false raw else Some (DErr ControlCharacter 0 (Some value))
     | _ => f false raw end = Some r ->
     match f true (raw ++ more) with
     | Some (DChar value _) => if char_allowed value then f true (raw ++ more) else Some (DErr ControlCharacter 0 (Some value))
     | _ => f true (raw ++ more) end = Some r).
  { intros f Hf. destruct (f false raw) as [r0|] eqn:E; [|discriminate].
    destruct r0 as [v w| |p d x].
    - rewrite (Hf _ eq_refl) by discriminate. auto.
    - intros E2. congruence.
    - rewrite (Hf _ eq_refl) by discriminate. auto. }
  assert (H8 : forall r0, decode_utf8 false raw = Some r0 -> r0 <> DIncomplete -> decode_utf8 true (raw ++ more) = Some r0).
  { intros r0. unfold decode_utf8. destruct raw as [|o raw]; [congruence|]. cbn [app].
    destruct (N.eqb_spec (utf8_width o) 0); [auto|].
    rewrite !nlen_cons, nlen_app.
    destruct (N.ltb_spec (1 + nlen raw) (utf8_width o)); [congruence|].
    destruct (N.ltb_spec (1 + (nlen raw + nlen more)) (utf8_width o)); [lia|].
    destruct (utf8_trail _ _ _ raw) as [x|] eqn:Et; [|discriminate].
    rewrite (utf8_trail_app _ _ _ _ more _ Et). auto. }
  assert (H16 : forall be r0, decode_utf16 be false raw = Some r0 -> r0 <> DIncomplete -> decode_utf16 be true (raw ++ more) = Some r0).
  { intros be r0. unfold decode_utf16. destruct raw as [|b0 [|b1 raw]]; [congruence..|]. cbn [app].
    destruct (_ =? _); [auto|]. destruct (_ =? _); [|auto].
    destruct raw as [|b2 [|b3 raw]]; [congruence..|]. cbn [app]. auto. }
  destruct e; [congruence| | |]; intros H.
  - apply (HH decode_utf8 H8 H).
  - apply (HH (decode_utf16 false) (H16 false) H).
  - apply (HH (decode_utf16 true) (H16 true) H).
Qed.

(* The verdict always exists, and "incomplete" means fewer than four bytes and not eof. *)
Lemma decode_one_some e eof raw : real_enc e -> raw <> [] ->
  exists r, decode_one e eof raw = Some r /\ (r = DIncomplete -> eof = false /\ nlen raw < 4).
Proof.
  intros He Hraw. unfold decode_one.
  assert (HH : forall (o : option dres),
     (exists r, o = Some r /\ (r = DIncomplete -> eof = false /\ nlen raw < 4)) ->
     exists r, match o with
     | Some (DChar value _) => if char_allowed value then o else Some (DErr ControlCharacter 0 (Some value))
     | _ => o end = Some r /\ (r = DIncomplete -> eof = false /\ nlen raw < 4)).
  { intros o (r & -> & Hi). destruct r; eauto. destruct (char_allowed value); eauto.
    eexists; split; [reflexivity|discriminate]. }
  assert (H16 : forall be, exists r, decode_utf16 be eof raw = Some r /\ (r = DIncomplete -> eof = false /\ nlen raw < 4)).
  { intros be. unfold decode_utf16. destruct raw as [|b0 [|b1 raw]]; [congruence| |].
    - destruct eof; eexists; (split; [reflexivity|]); [discriminate|]. intros _. split; [reflexivity|]. rewrite nlen_cons, nlen_nil. lia.
    - destruct (_ =? _); [eexists; split; [reflexivity|discriminate]|].
      destruct (_ =? _); [|eexists; split; [reflexivity|discriminate]].
      destruct raw as [|b2 [|b3 raw]].
      + destruct eof; eexists; (split; [reflexivity|]); [discriminate|]. intros _. split; [reflexivity|]. rewrite !nlen_cons, nlen_nil. lia.
      + destruct eof; eexists; (split; [reflexivity|]); [discriminate|]. intros _. split; [reflexivity|]. rewrite !nlen_cons, nlen_nil. lia.
      + destruct (negb _); eexists; (split; [reflexivity|discriminate]). }
  destruct e; [congruence| |apply HH, H16|apply HH, H16].
  apply HH. unfold decode_utf8. destruct raw as [|o raw]; [congruence|].
  pose proof (utf8_width_le4 o).
  destruct (N.eqb_spec (utf8_width o) 0); [eexists; split; [reflexivity|discriminate]|].
  destruct (N.ltb_spec (nlen (o :: raw)) (utf8_width o)).
  - destruct eof; eexists; (split; [reflexivity|]); [discriminate|]. intros _. split; [reflexivity|lia].
  - destruct (utf8_trail _ _ _ _) as [x|] eqn:Et.
    + destruct x as [[? ?]|?]; [eexists; split; [reflexivity|discriminate]|].
      destruct (negb _); [eexists; split; [reflexivity|discriminate]|].
      destruct (_ || _); eexists; (split; [reflexivity|discriminate]).
    + exfalso. revert Et. apply utf8_trail_some. rewrite nlen_cons in *. unfold nlen in *. lia.
Qed.

Definition enc_of (e : encoding) (c : N) : list N :=
  match e with Utf8Enc => utf8_enc c | Utf16LE => utf16_enc false c | Utf16BE => utf16_enc true c | AnyEnc => [] end.

Lemma decode_one_char e eof raw v w : real_enc e -> Forall byte_ok raw ->
  decode_one e eof raw = Some (DChar v w) ->
  yaml_char v /\ w = nlen (enc_of e v) /\ exists rest, raw = enc_of e v ++ rest.
Proof.
  intros He HB H. unfold decode_one in H.
  destruct e; [congruence| | |];
  match goal with H : match ?o with _ => _ end = _ |- _ => destruct o as [[v' w'| |]|] eqn:E; try discriminate;
     destruct (char_allowed v') eqn:Ha; [|discriminate] end;
  injection H as -> ->; apply char_allowed_spec in Ha.
  - destruct (decode_utf8_inv _ _ _ _ HB E) as (? & ? & ?). auto.
  - destruct (decode_utf16_inv _ _ _ _ _ HB E) as (? & ? & ?). auto.
  - destruct (decode_utf16_inv _ _ _ _ _ HB E) as (? & ? & ?). auto.
Qed.

Lemma decode_one_enc e eof c rest : real_enc e -> yaml_char c ->
  decode_one e eof (enc_of e c ++ rest) = Some (DChar c (nlen (enc_of e c))).
Proof.
  intros He Hc. pose proof (yaml_char_scalar _ Hc) as Hs. apply char_allowed_spec in Hc.
  unfold decode_one. destruct e; [congruence| | |]; cbn [enc_of];
  rewrite ?decode_utf8_enc, ?decode_utf16_enc by assumption; rewrite Hc; reflexivity.
Qed.

Lemma enc_of_nonempty e c : real_enc e -> enc_of e c <> [].
Proof. destruct e; intros; cbn; [congruence|apply utf8_enc_nonempty|apply utf16_enc_nonempty..]. Qed.

Lemma enc_of_len e c : real_enc e -> yaml_char c ->
  1 <= nlen (enc_of e c) <= 4 /\ 2 * nlen (utf8_enc c) <= 3 * nlen (enc_of e c).
Proof.
  intros He Hc. assert (c <= 0x10FFFF) by (unfold yaml_char in Hc; lia).
  pose proof (utf8_enc_len c).
  destruct e; [congruence| | |]; cbn [enc_of]; rewrite ?utf16_enc_len; [lia|..];
  destruct (N.ltb_spec c 0x10000); try lia;
  unfold utf8_enc; destruct (c <? 0x80); [| destruct (c <? 0x800); [| destruct (N.ltb_spec c 0x10000); [|lia]] | | destruct (c <? 0x800); [| destruct (N.ltb_spec c 0x10000); [|lia]] ];
  rewrite ?nlen_cons, ?nlen_nil; lia.
Qed.

(* ---- decoding a whole byte sequence ---- *)

Inductive dec (e : encoding) : N -> list N -> list N -> option rerr -> Prop :=
  | dec_nil off : dec e off [] [] None
  | dec_char off v bs cs r : yaml_char v ->
      dec e (off + nlen (enc_of e v)) bs cs r -> dec e off (enc_of e v ++ bs) (v :: cs) r
  | dec_err off bs p d v : bs <> [] -> decode_one e true bs = Some (DErr p d v) ->
      dec e off bs [] (Some (mkRerr p (off + d) v)).

Lemma dec_total e off bs : real_enc e -> Forall byte_ok bs -> exists cs r, dec e off bs cs r.
Proof.
  intros He. remember (length bs) as n. revert off bs Heqn.
  induction n as [n IH] using lt_wf_ind. intros off bs Hn HB.
  destruct bs as [|b bs]; [exists [], None; constructor|].
  destruct (decode_one_some e true (b :: bs) He) as (r & Hr & Hi); [discriminate|].
  destruct r as [v w| |p d x].
  - destruct (decode_one_char _ _ _ _ _ He HB Hr) as (Hv & Hw & rest & Hrest).
    assert (Hl : (length rest < n)%nat).
    { pose proof (enc_of_nonempty e v He) as Hne. subst n. rewrite Hrest, app_length.
      destruct (enc_of e v); [congruence|cbn; lia]. }
    rewrite Hrest in HB. apply Forall_app in HB.
    destruct (IH _ Hl (off + nlen (enc_of e v)) rest eq_refl (proj2 HB)) as (cs & r & Hd).
    exists (v :: cs), r. rewrite Hrest. constructor; auto.
  - destruct (Hi eq_refl). discriminate.
  - exists [], (Some (mkRerr p (off + d) x)). constructor; [discriminate|exact Hr].
Qed.

Lemma dec_none_iff e off bs cs : real_enc e ->
  dec e off bs cs None <-> (bs = flat_map (enc_of e) cs /\ Forall yaml_char cs).
Proof.
  intros He. split.
  - intros H. remember None as r. induction H; subst.
    + split; constructor.
    + destruct (IHdec eq_refl) as [-> ?]. split; [reflexivity|constructor; assumption].
    + discriminate.
  - intros [-> H]. revert off. induction H; intros off; cbn [flat_map]; constructor; auto.
Qed.

Lemma dec_step_err e off bs p d v cs r : real_enc e -> bs <> [] ->
  decode_one e true bs = Some (DErr p d v) -> dec e off bs cs r ->
  cs = [] /\ r = Some (mkRerr p (off + d) v).
Proof.
  intros He Hb H Hd. inversion Hd; subst; [congruence| |].
  - rewrite decode_one_enc in H by assumption. discriminate.
  - rewrite H in H1. injection H1 as <- <- <-. auto.
Qed.

Lemma dec_step_char e off bs v w cs r : real_enc e -> bs <> [] ->
  decode_one e true bs = Some (DChar v w) -> dec e off bs cs r ->
  exists bs' cs', bs = enc_of e v ++ bs' /\ w = nlen (enc_of e v) /\ yaml_char v /\
    cs = v :: cs' /\ dec e (off + w) bs' cs' r.
Proof.
  intros He Hb H Hd. inversion Hd; subst; [congruence| |congruence].
  rewrite decode_one_enc in H by assumption. injection H as -> <-. eauto 10.
Qed.

(* ---- the invariant ---- *)

Definition calls_ok (eof : bool) (calls : list hcall) : Prop :=
  Forall (fun c => 0 < asked c /\ given c <= asked c /\ asked c <= INPUT_RAW_BUFFER_SIZE) calls /\
  (if eof then exists c l, calls = c :: l /\ given c = 0 /\ Forall (fun c => 0 < given c) l
   else Forall (fun c => 0 < given c) calls).

(* [pend]: characters in the buffer; [cs], [r]: what the rest of the input decodes to *)
Record live (st : reader) (cs : list N) (r : option rerr) (pend : list N) : Prop := mkLive {
  lv_enc : real_enc (rd_enc st);
  lv_bytes : Forall byte_ok (rd_raw st ++ rd_rest st);
  lv_raw : rd_raw_pre st + nlen (rd_raw st) <= INPUT_RAW_BUFFER_SIZE;
  lv_buf : rd_buf st = utf8 pend;
  lv_unread : rd_unread st = nlen pend;
  lv_pend : Forall yaml_char pend;
  lv_cap : rd_buf_pre st + nlen (rd_buf st) <= INPUT_BUFFER_SIZE;
  lv_eof : rd_eof st = true -> rd_rest st = [];
  lv_dec : dec (rd_enc st) (rd_offset st) (rd_raw st ++ rd_rest st) cs r;
  lv_off : rd_offset st + nlen (rd_raw st) + nlen (rd_rest st) < MAX_FILE_SIZE;
  lv_calls : calls_ok (rd_eof st) (rd_calls st)
}.

(* the whole input has been decoded and the NUL is in the buffer *)
Record done (st : reader) (pend : list N) : Prop := mkDone {
  dn_enc : real_enc (rd_enc st);
  dn_eof : rd_eof st = true;
  dn_raw : rd_raw st = [];
  dn_rawcap : rd_raw_pre st <= INPUT_RAW_BUFFER_SIZE;
  dn_rest : rd_rest st = [];
  dn_buf : rd_buf st = utf8 pend ++ [0];
  dn_unread : rd_unread st = nlen pend + 1;
  dn_pend : Forall yaml_char pend;
  dn_cap : rd_buf_pre st + nlen (rd_buf st) <= INPUT_BUFFER_SIZE;
  dn_calls : calls_ok true (rd_calls st)
}.

Lemma utf8_app a b : utf8 (a ++ b) = utf8 a ++ utf8 b.
Proof. unfold utf8. apply flat_map_app. Qed.
Lemma utf8_one c : utf8 [c] = utf8_enc c.
Proof. cbn. apply app_nil_r. Qed.
Lemma utf8_len cs : nlen cs <= nlen (utf8 cs) <= 4 * nlen cs.
Proof.
  induction cs as [|c cs IH]; [cbn; lia|]. unfold utf8 in *. cbn [flat_map].
  rewrite nlen_app, nlen_cons. pose proof (utf8_enc_len c). lia.
Qed.

Lemma live_end st cs r pend : live st cs r pend -> rd_raw st = [] -> rd_eof st = true -> cs = [] /\ r = None.
Proof.
  intros [] Er Ee. rewrite Er, (lv_eof0 Ee) in lv_dec0. cbn in lv_dec0. inversion lv_dec0; subst; auto; try congruence.
  exfalso. match goal with H : enc_of _ ?v ++ _ = [] |- _ => apply app_eq_nil in H; destruct (enc_of_nonempty _ v lv_enc0); tauto end.
Qed.

Lemma decode_raw_ok K fuel : K <= INPUT_BUFFER_SIZE -> forall st cs r pend,
  live st cs r pend -> (length (rd_raw st) <= fuel)%nat ->
  2 * (rd_buf_pre st + nlen (rd_buf st)) + 3 * nlen (rd_raw st) <= 2 * K ->
  (exists st' cs1 cs2, decode_raw fuel st = ROk st' /\ cs = cs1 ++ cs2 /\ live st' cs2 r (pend ++ cs1)
     /\ rd_eof st' = rd_eof st /\ rd_enc st' = rd_enc st /\ rd_rest st' = rd_rest st
     /\ rd_plan st' = rd_plan st /\ rd_buf_pre st' = rd_buf_pre st
     /\ (rd_raw st' = [] \/ (rd_eof st' = false /\ nlen (rd_raw st') < 4))
     /\ 2 * (rd_buf_pre st' + nlen (rd_buf st')) + 3 * nlen (rd_raw st') <= 2 * K
     /\ (rd_raw st' = [] -> rd_eof st' = true -> cs2 = [] /\ r = None))
  \/ (exists st' err, decode_raw fuel st = RFail st' err /\ r = Some err).
Proof.
  intros HK. induction fuel as [|fuel IH]; intros st cs r pend L Hf Hcap.
  - assert (Er : rd_raw st = []) by (destruct (rd_raw st); [reflexivity|cbn in Hf; lia]).
    left. exists st, [], cs. cbn [app]. rewrite app_nil_r.
    replace (decode_raw 0 st) with (ROk st) by (cbn [decode_raw]; rewrite Er; reflexivity).
    repeat (split; [solve [auto]|]). intros; eapply live_end; eauto.
  - destruct (rd_raw st) as [|b l] eqn:Er.
    { left. exists st, [], cs. cbn [app]. rewrite app_nil_r.
      replace (decode_raw (S fuel) st) with (ROk st) by (cbn [decode_raw]; rewrite Er; reflexivity).
      rewrite <- Er in Hcap.
      repeat (split; [solve [auto]|]). intros; eapply live_end; eauto. }
    cbn [decode_raw]. rewrite Er.
    assert (Hne : b :: l <> []) by discriminate. rewrite <- Er in *. clear Er b l.
    destruct L as [Lenc Lbytes Lraw Lbuf Lunread Lpend Lcap Leof Ldec Loff Lcalls].
    destruct (decode_one_some (rd_enc st) (rd_eof st) (rd_raw st) Lenc Hne) as (dr & Hdr & Hinc).
    rewrite Hdr.
    destruct dr as [v w| |p d v].
    + assert (Hx := decode_one_ext _ _ _ (rd_rest st) _ Lenc Hne Hdr ltac:(discriminate) Leof).
      assert (Hne2 : rd_raw st ++ rd_rest st <> []) by (intros E; apply app_eq_nil in E; tauto).
      destruct (dec_step_char _ _ _ _ _ _ _ Lenc Hne2 Hx Ldec) as (bs' & cs' & Eb & Ew & Hv & Ecs & Hd').
      destruct (decode_one_char _ _ _ _ _ Lenc (proj1 (proj1 (Forall_app _ _ _) Lbytes)) Hdr) as (_ & _ & raw' & Eraw).
      pose proof (enc_of_len _ v Lenc Hv) as (Hl1 & Hl2).
      assert (Ebs' : bs' = raw' ++ rd_rest st).
      { rewrite Eraw, <- app_assoc in Eb. apply app_inv_head in Eb. auto. }
      unfold put_buffer. rewrite put_utf8_enc.
      assert (Hlraw : nlen (rd_raw st) = w + nlen raw') by (rewrite Eraw, nlen_app; lia).
      destruct (N.ltb_spec INPUT_BUFFER_SIZE (rd_buf_pre st + nlen (rd_buf st) + nlen (utf8_enc v))); [exfalso; lia|].
      match goal with |- context [decode_raw fuel ?s] => set (st1 := s) end.
      assert (Hraw1 : rd_raw st1 = raw').
      { unfold st1; cbn [rd_raw]. rewrite Eraw, Ew. apply skipn_nlen_app. }
      assert (L1 : live st1 cs' r (pend ++ [v])).
      { split; unfold st1; cbn [rd_enc rd_raw rd_rest rd_raw_pre rd_buf rd_buf_pre rd_unread rd_eof rd_offset rd_calls rd_plan];
          change (skipn (N.to_nat w) (rd_raw st)) with (rd_raw st1); rewrite ?Hraw1; auto.
        - rewrite Eb, Ebs' in Lbytes. apply Forall_app in Lbytes. tauto.
        - lia.
        - rewrite Lbuf, utf8_app, utf8_one. reflexivity.
        - rewrite nlen_app, nlen_cons, nlen_nil. lia.
        - apply Forall_app. split; auto.
        - rewrite nlen_app. lia.
        - rewrite <- Ebs'. exact Hd'.
        - lia. }
      destruct (IH st1 cs' r (pend ++ [v]) L1) as [(st' & cs1 & cs2 & E & Ec & L' & rest)|(st' & err & E & Er)].
      * rewrite Hraw1. unfold nlen in *. lia.
      * rewrite Hraw1. unfold st1; cbn [rd_buf_pre rd_buf]. rewrite nlen_app. lia.
      * left. exists st', (v :: cs1), cs2. rewrite E. split; [reflexivity|]. split; [subst; reflexivity|].
        split; [rewrite <- app_assoc in L'; exact L'|]. exact rest.
      * right. eauto.
    + left. exists st, [], cs. rewrite app_nil_r. destruct (Hinc eq_refl).
      split; [reflexivity|]. split; [reflexivity|]. split; [split; auto|].
      repeat (split; auto); congruence.
    + right. exists st, (mkRerr p (rd_offset st + d) v). split; [reflexivity|].
      assert (Hx := decode_one_ext _ _ _ (rd_rest st) _ Lenc Hne Hdr ltac:(discriminate) Leof).
      assert (Hne2 : rd_raw st ++ rd_rest st <> []) by (intros E; apply app_eq_nil in E; tauto).
      destruct (dec_step_err _ _ _ _ _ _ _ _ Lenc Hne2 Hx Ldec). assumption.
Qed.

Definition after_read (st : reader) (got rest' : list N) (plan' : list (option N)) : reader :=
  mkReader (nlen got =? 0) (rd_enc st) 0 (rd_raw st ++ got)
               (rd_buf_pre st) (rd_buf st) (rd_unread st) (rd_offset st)
               rest' plan' (mkCall (INPUT_RAW_BUFFER_SIZE - nlen (rd_raw st)) (nlen got) :: rd_calls st).

Lemma handler_read_cases rest plan n : 0 < n ->
  (exists got rest' plan', handler_read rest plan n = Some (got, rest', plan') /\ rest = got ++ rest'
     /\ nlen got <= n /\ (got = [] -> rest = []) /\ incl plan' plan)
  \/ (handler_read rest plan n = None /\ In None plan).
Proof.
  intros Hn. unfold handler_read.
  assert (HH : forall m, 0 < m -> m <= n ->
     rest = firstn (N.to_nat m) rest ++ skipn (N.to_nat m) rest /\ nlen (firstn (N.to_nat m) rest) <= n
     /\ (firstn (N.to_nat m) rest = [] -> rest = [])).
  { intros m Hm Hmn. split; [symmetry; apply firstn_skipn|]. split; [rewrite nlen_firstn; lia|].
    destruct rest; [auto|]. replace (N.to_nat m) with (S (N.to_nat (m-1))) by lia. discriminate. }
  destruct plan as [|[k|] plan].
  - left. destruct (HH n Hn (N.le_refl n)) as (? & ? & ?). eexists _, _, _. split; [reflexivity|]. auto using incl_refl.
  - left. destruct (HH (N.min n (N.max 1 k)) ltac:(lia) ltac:(lia)) as (? & ? & ?).
    eexists _, _, _. split; [reflexivity|]. auto using incl_tl, incl_refl.
  - right. split; [reflexivity|left; reflexivity].
Qed.

Lemma update_raw_cases st : rd_eof st = false -> nlen (rd_raw st) < INPUT_RAW_BUFFER_SIZE ->
  (exists got rest' plan', update_raw_buffer st = ROk (after_read st got rest' plan')
     /\ rd_rest st = got ++ rest' /\ nlen (rd_raw st) + nlen got <= INPUT_RAW_BUFFER_SIZE
     /\ (got = [] -> rd_rest st = []) /\ incl plan' (rd_plan st))
  \/ (exists st', update_raw_buffer st = RFail st' (mkRerr InputError (rd_offset st) None) /\ In None (rd_plan st)).
Proof.
  intros He Hl. unfold update_raw_buffer.
  replace ((rd_raw_pre st =? 0) && (nlen (rd_raw st) =? INPUT_RAW_BUFFER_SIZE)) with false by lia.
  rewrite He.
  destruct (handler_read_cases (rd_rest st) (rd_plan st) (INPUT_RAW_BUFFER_SIZE - nlen (rd_raw st)))
    as [(got & rest' & plan' & E & Er & Hg & Hz & Hi)|(E & Hin)]; [lia|..]; rewrite E.
  - left. exists got, rest', plan'.
    destruct (N.ltb_spec INPUT_RAW_BUFFER_SIZE (nlen (rd_raw st) + nlen got)); [lia|].
    repeat (split; [solve [auto | lia]|]). auto.
  - right. eexists. split; [reflexivity|assumption].
Qed.

Lemma calls_ok_read st (got : list N) : rd_eof st = false -> calls_ok false (rd_calls st) ->
  nlen (rd_raw st) < INPUT_RAW_BUFFER_SIZE -> nlen (rd_raw st) + nlen got <= INPUT_RAW_BUFFER_SIZE ->
  calls_ok (nlen got =? 0) (mkCall (INPUT_RAW_BUFFER_SIZE - nlen (rd_raw st)) (nlen got) :: rd_calls st).
Proof.
  intros He [H1 H2] Hl Hg. split.
  - constructor; [cbn; lia|assumption].
  - destruct (N.eqb_spec (nlen got) 0).
    + eexists _, _. split; [reflexivity|]. cbn. auto.
    + constructor; [cbn; lia|assumption].
Qed.

Lemma after_read_live st cs r pend got rest' plan' : live st cs r pend -> rd_eof st = false ->
  nlen (rd_raw st) < INPUT_RAW_BUFFER_SIZE -> nlen (rd_raw st) + nlen got <= INPUT_RAW_BUFFER_SIZE ->
  rd_rest st = got ++ rest' -> (got = [] -> rd_rest st = []) ->
  live (after_read st got rest' plan') cs r pend.
Proof.
  intros L He Hl Hg Er Hz.
  destruct L as [Lenc Lbytes Lraw Lbuf Lunread Lpend Lcap Leof Ldec Loff Lcalls].
  rewrite He in Lcalls.
  split; unfold after_read; cbn [rd_enc rd_raw rd_rest rd_raw_pre rd_buf rd_buf_pre rd_unread rd_eof rd_offset rd_calls rd_plan]; auto.
  - rewrite <- app_assoc, <- Er. assumption.
  - rewrite nlen_app. lia.
  - intros E. apply N.eqb_eq, nlen_0 in E. subst got. cbn in Er. rewrite <- Er. auto.
  - rewrite <- app_assoc, <- Er. assumption.
  - rewrite nlen_app. rewrite Er, nlen_app in Loff. lia.
  - apply calls_ok_read; auto.
Qed.

(* ---- filling the buffer ---- *)

Definition fill_result (len : N) (plan : list (option N)) (cs : list N) (r : option rerr) (pend : list N) (e : encoding) (o : rout) : Prop :=
  (exists st' cs1 cs2, o = ROk st' /\ cs = cs1 ++ cs2 /\ live st' cs2 r (pend ++ cs1) /\ rd_eof st' = false
     /\ len <= rd_unread st' /\ rd_enc st' = e /\ incl (rd_plan st') plan)
  \/ (exists st', o = ROk st' /\ done st' (pend ++ cs) /\ r = None /\ rd_enc st' = e)
  \/ (exists st' err, o = RFail st' err /\ (r = Some err \/ (In None plan /\ re_problem err = InputError))).

Lemma fill_buffer_ok len plan : req_ok len -> forall fuel first st cs r pend,
  live st cs r pend -> rd_buf_pre st = 0 -> incl (rd_plan st) plan ->
  (rd_eof st = true -> first = true /\ nlen (rd_raw st) <> 0 \/ nlen (rd_raw st) = 0) ->
  (first = false -> nlen (rd_raw st) < 4) ->
  (first = false -> rd_eof st = false) ->
  (nlen (rd_raw st) <> 0 -> first = true -> (length (rd_rest st) + 2 <= fuel)%nat) ->
  (length (rd_rest st) + 1 <= fuel)%nat ->
  (rd_eof st = true -> len > rd_unread st) ->
  fill_result len plan cs r pend (rd_enc st) (fill_buffer fuel first len st).
Proof.
  intros Hlen fuel. unfold req_ok in Hlen.
  induction fuel as [|fuel IH]; intros first st cs r pend L Hpre Hincl He1 Hf1 Hf2 Hfu1 Hfu2 Heu; [lia|].
  cbn [fill_buffer].
  destruct (N.ltb_spec (rd_unread st) len) as [Hu|Hu].
  2:{ destruct (N.leb_spec MAX_FILE_SIZE (rd_offset st)); [destruct L; lia|].
      left. exists st, [], cs. rewrite app_nil_r. cbn [app].
      repeat (split; [solve [auto]|]). split; [|auto].
      destruct (rd_eof st); [|reflexivity]. specialize (Heu eq_refl). lia. }
  (* the part after the raw buffer has been refilled *)
  assert (HD : forall st1, live st1 cs r pend -> rd_buf_pre st1 = 0 -> incl (rd_plan st1) plan ->
     rd_enc st1 = rd_enc st -> rd_unread st1 = rd_unread st ->
     (rd_eof st1 = false -> (length (rd_rest st1) + 1 <= fuel)%nat) ->
     fill_result len plan cs r pend (rd_enc st)
     (match decode_raw (length (rd_raw st1)) st1 with
            | ROk st2 =>
                if rd_eof st2 then
                  match put_buffer st2 [0] 0 with
                  | None => RUB
                  | Some st3 => ROk st3
                  end
                else fill_buffer fuel false len st2
            | r => r
            end)).
  { intros st1 L1 Hp1 Hi1 Hen1 Hun1 Hfu.
    assert (Hbuf : nlen (rd_buf st1) <= 4 * (len - 1)).
    { rewrite (lv_buf _ _ _ _ L1). pose proof (utf8_len pend). pose proof (lv_unread _ _ _ _ L1). lia. }
    assert (Hcap : 2 * (rd_buf_pre st1 + nlen (rd_buf st1)) + 3 * nlen (rd_raw st1) <= 2 * (INPUT_BUFFER_SIZE - 1)).
    { pose proof (lv_raw _ _ _ _ L1). unfold INPUT_BUFFER_SIZE, INPUT_RAW_BUFFER_SIZE in *. lia. }
    destruct (decode_raw_ok (INPUT_BUFFER_SIZE - 1) (length (rd_raw st1)) ltac:(lia) st1 cs r pend L1 (le_n _) Hcap)
      as [(st2 & cs1 & cs2 & E & Ecs & L2 & Eeof & Eenc & Erest & Eplan & Epre & Hraw & Hcap2 & Hend)|(st2 & err & E & Er)]; rewrite E.
    - destruct (rd_eof st2) eqn:E2.
      + destruct Hraw as [Hraw|[? ?]]; [|congruence].
        destruct (Hend Hraw eq_refl) as [-> ->]. rewrite app_nil_r in Ecs. subst cs1.
        unfold put_buffer.
        destruct (N.ltb_spec INPUT_BUFFER_SIZE (rd_buf_pre st2 + nlen (rd_buf st2) + nlen [0])) as [Hx|Hx];
          rewrite nlen_cons, nlen_nil in Hx; [unfold INPUT_BUFFER_SIZE, INPUT_RAW_BUFFER_SIZE in *; lia|].
        right. left. eexists. split; [reflexivity|].
        destruct L2 as [Lenc Lbytes Lraw Lbuf Lunread Lpend Lcap Leof Ldec Loff Lcalls].
        split; [|split; [reflexivity|cbn; congruence]].
        split; cbn [rd_enc rd_raw rd_rest rd_raw_pre rd_buf rd_buf_pre rd_unread rd_eof rd_offset rd_calls rd_plan]; auto.
        all: try (rewrite Hraw; reflexivity).
        all: try (rewrite Lbuf; reflexivity).
        all: try (rewrite Lunread; reflexivity).
        all: try (rewrite nlen_app, nlen_cons, nlen_nil; lia).
        all: try (clear -Lraw; lia).
        all: rewrite <- E2; assumption.
      + assert (L2' := L2). 
        assert (Hrest1 : rd_eof st1 = false) by congruence.
        specialize (Hfu Hrest1).
        destruct (IH false st2 cs2 r (pend ++ cs1) L2) as [(st' & ca & cb & ? & ? & ? & ? & ? & ? & ?)|[(st' & ? & ? & ? & ?)|(st' & err & ? & ?)]]; try congruence.
        * rewrite Eplan. assumption.
        * intros _. destruct Hraw as [->|[_ ?]]; [rewrite nlen_nil|]; lia.
        * left. exists st', (cs1 ++ ca), cb. subst. rewrite <- !app_assoc in *. repeat (split; [solve [auto | congruence]|]). auto.
        * right. left. exists st'. subst. rewrite <- app_assoc in *. repeat (split; [solve [auto | congruence]|]). congruence.
        * right. right. eauto.
    - right. right. eauto. }
  destruct (negb first || (nlen (rd_raw st) =? 0)) eqn:Ecase.
  - (* refill *)
    destruct (rd_eof st) eqn:Eeof.
    + (* raw empty and already at eof *)
      assert (Hraw0 : nlen (rd_raw st) = 0) by (destruct first; [|specialize (Hf2 eq_refl); congruence]; cbn in Ecase; lia).
      unfold update_raw_buffer. rewrite Hraw0, Eeof.
      replace ((rd_raw_pre st =? 0) && (0 =? INPUT_RAW_BUFFER_SIZE)) with false by (unfold INPUT_RAW_BUFFER_SIZE; lia).
      apply HD; auto. congruence.
    + assert (Hlt : nlen (rd_raw st) < INPUT_RAW_BUFFER_SIZE).
      { unfold INPUT_RAW_BUFFER_SIZE. destruct first; [cbn in Ecase; lia|]. specialize (Hf1 eq_refl). lia. }
      destruct (update_raw_cases st Eeof Hlt) as [(got & rest' & plan' & E & Er & Hg & Hz & Hi)|(st' & E & Hin)]; rewrite E.
      * apply HD; auto.
        -- apply after_read_live; auto.
        -- cbn. eapply incl_tran; eauto.
        -- cbn [after_read rd_eof rd_rest]. intros Hgot. apply N.eqb_neq in Hgot.
           rewrite Er, app_length in Hfu2. unfold nlen in Hgot. lia.
      * right. right. eexists _, _. split; [reflexivity|]. right. split; [apply Hincl; assumption|reflexivity].
  - (* first round with raw bytes present *)
    apply HD; auto. intros Hee. destruct first; [|discriminate]. cbn in Ecase. specialize (Hfu1 ltac:(lia) eq_refl). lia.
Qed.

(* ---- encoding detection ---- *)

(* the state before anything was decoded *)
Record start (st : reader) (input : list N) : Prop := mkStart {
  sr_enc : rd_enc st = AnyEnc;
  sr_data : rd_raw st ++ rd_rest st = input;
  sr_rawpre : rd_raw_pre st = 0;
  sr_buf : rd_buf st = [];
  sr_pre : rd_buf_pre st = 0;
  sr_unread : rd_unread st = 0;
  sr_offset : rd_offset st = 0;
  sr_eof : rd_eof st = true -> rd_rest st = [];
  sr_calls : calls_ok (rd_eof st) (rd_calls st)
}.

Lemma fill3_ok fuel : forall st input, start st input -> (4 <= fuel + length (rd_raw st))%nat ->
  nlen (rd_raw st) <= INPUT_RAW_BUFFER_SIZE ->
  (exists st', fill3 fuel st = ROk st' /\ start st' input /\ (rd_rest st' = [] \/ 3 <= nlen (rd_raw st'))
     /\ nlen (rd_raw st') <= INPUT_RAW_BUFFER_SIZE
     /\ incl (rd_plan st') (rd_plan st))
  \/ (exists st' err, fill3 fuel st = RFail st' err /\ re_problem err = InputError /\ In None (rd_plan st)).
Proof.
  induction fuel as [|fuel IH]; intros st input S Hf Hc.
  - cbn [fill3]. replace (negb (rd_eof st) && (nlen (rd_raw st) <? 3)) with false by (unfold nlen; destruct (rd_eof st); lia).
    left. exists st. repeat (split; [solve [auto]|]). split; [right; unfold nlen; lia|]. auto using incl_refl.
  - cbn [fill3]. destruct (rd_eof st) eqn:E; cbn [negb andb].
    { left. exists st. split; [reflexivity|]. split; [assumption|]. split; [left; apply (sr_eof _ _ S); assumption|]. auto using incl_refl. }
    destruct (N.ltb_spec (nlen (rd_raw st)) 3).
    2:{ left. exists st. split; [reflexivity|]. split; [assumption|]. split; [right; assumption|]. auto using incl_refl. }
    destruct (update_raw_cases st E) as [(got & rest' & plan' & Eu & Er & Hg & Hz & Hi)|(st' & Eu & Hin)];
      [unfold INPUT_RAW_BUFFER_SIZE; lia|..]; rewrite Eu.
    2:{ right. eauto. }
    assert (S' : start (after_read st got rest' plan') input).
    { destruct S as [S1 S2 S3 S4 S5 S6 S7 S8 S9].
      split; unfold after_read; cbn [rd_enc rd_raw rd_rest rd_raw_pre rd_buf rd_buf_pre rd_unread rd_eof rd_offset rd_calls rd_plan]; auto.
      - rewrite <- app_assoc, <- Er. assumption.
      - intros E0. apply N.eqb_eq, nlen_0 in E0. subst got. cbn in Er. rewrite <- Er. auto.
      - rewrite E in S9. apply calls_ok_read; auto. unfold INPUT_RAW_BUFFER_SIZE; lia. }
    destruct got as [|g got].
    + (* end of file: the next round stops *)
      left. exists (after_read st [] rest' plan').
      replace (fill3 fuel (after_read st [] rest' plan')) with (ROk (after_read st [] rest' plan'))
        by (destruct fuel; reflexivity).
      split; [reflexivity|]. split; [assumption|].
      split; [left; apply (sr_eof _ _ S'); reflexivity|]. split; [cbn; rewrite app_nil_r; assumption|exact Hi].
    + destruct (IH _ _ S') as [(st' & ? & ? & ? & ? & ?)|(st' & err & ? & ? & ?)].
      * cbn [after_read rd_raw]. rewrite app_length. cbn [length]. lia.
      * cbn [after_read rd_raw]. rewrite nlen_app. lia.
      * left. exists st'. repeat (split; [solve [auto]|]). eapply incl_tran; [eassumption|]. exact Hi.
      * right. eexists _, _. split; [eassumption|]. split; [assumption|]. apply Hi. assumption.
Qed.

Lemma starts_with2 a b l rest : (rest = [] \/ 3 <= nlen l) ->
  starts_with [a; b] l = starts_with [a; b] (l ++ rest).
Proof.
  intros [->|H]; [rewrite app_nil_r; reflexivity|].
  destruct l as [|x [|y l]]; cbn [app]; [rewrite ?nlen_cons, ?nlen_nil in H; lia..|].
  unfold starts_with. cbn [combine forallb]. rewrite !nlen_cons, nlen_nil, nlen_app.
  replace (1 + (1 + 0) <=? 1 + (1 + nlen l)) with true by lia.
  replace (1 + (1 + 0) <=? 1 + (1 + (nlen l + nlen rest))) with true by lia. reflexivity.
Qed.
Lemma starts_with3 a b c l rest : (rest = [] \/ 3 <= nlen l) ->
  starts_with [a; b; c] l = starts_with [a; b; c] (l ++ rest).
Proof.
  intros [->|H]; [rewrite app_nil_r; reflexivity|].
  destruct l as [|x [|y [|z l]]]; cbn [app]; [rewrite ?nlen_cons, ?nlen_nil in H; lia..|].
  unfold starts_with. cbn [combine forallb]. rewrite !nlen_cons, nlen_nil, nlen_app.
  replace (1 + (1 + (1 + 0)) <=? 1 + (1 + (1 + nlen l))) with true by lia.
  replace (1 + (1 + (1 + 0)) <=? 1 + (1 + (1 + (nlen l + nlen rest)))) with true by lia. reflexivity.
Qed.

Lemma starts_with_spec p l : starts_with p l = true <-> exists k, l = p ++ k.
Proof.
  unfold starts_with. revert l. induction p as [|a p IH]; intros l.
  - split; [exists l; reflexivity|]. intros _. cbn [combine forallb]. rewrite andb_true_r. apply N.leb_le. unfold nlen at 1. cbn [length]. lia.
  - destruct l as [|b l].
    + rewrite nlen_cons, nlen_nil. replace (1 + nlen p <=? 0) with false by lia. cbn.
      split; [discriminate|]. intros [k Hk]. discriminate.
    + cbn [combine forallb]. rewrite !nlen_cons.
      replace (1 + nlen p <=? 1 + nlen l) with (nlen p <=? nlen l) by lia.
      rewrite !andb_true_iff, N.eqb_eq. specialize (IH l). rewrite andb_true_iff in IH.
      split.
      * intros (H1 & -> & H2). destruct (proj1 IH (conj H1 H2)) as [k ->]. exists k. reflexivity.
      * intros [k Hk]. cbn in Hk. injection Hk as -> ->.
        destruct (proj2 IH (ex_intro _ k eq_refl)). auto.
Qed.

Lemma bom_spec bs : bom bs =
  if starts_with [0xFF; 0xFE] bs then (Utf16LE, 2)
  else if starts_with [0xFE; 0xFF] bs then (Utf16BE, 2)
  else if starts_with [0xEF; 0xBB; 0xBF] bs then (Utf8Enc, 3)
  else (Utf8Enc, 0).
Proof.
  destruct (starts_with [0xFF; 0xFE] bs) eqn:E1.
  { apply starts_with_spec in E1. destruct E1 as [k ->]. reflexivity. }
  destruct (starts_with [0xFE; 0xFF] bs) eqn:E2.
  { apply starts_with_spec in E2. destruct E2 as [k ->]. reflexivity. }
  destruct (starts_with [0xEF; 0xBB; 0xBF] bs) eqn:E3.
  { apply starts_with_spec in E3. destruct E3 as [k ->]. reflexivity. }
  assert (H1 : forall k, bs <> 0xFF :: 0xFE :: k).
  { intros k ->. rewrite (proj2 (starts_with_spec _ _)) in E1; [discriminate|exists k; reflexivity]. }
  assert (H2 : forall k, bs <> 0xFE :: 0xFF :: k).
  { intros k ->. rewrite (proj2 (starts_with_spec _ _)) in E2; [discriminate|exists k; reflexivity]. }
  assert (H3 : forall k, bs <> 0xEF :: 0xBB :: 0xBF :: k).
  { intros k ->. rewrite (proj2 (starts_with_spec _ _)) in E3; [discriminate|exists k; reflexivity]. }
  clear E1 E2 E3. unfold bom.
  repeat (match goal with |- match ?x with _ => _ end = _ => destruct x; try reflexivity end);
  exfalso; first [eapply H1; reflexivity | eapply H2; reflexivity | eapply H3; reflexivity].
Qed.

Lemma bom_split bs : exists pre, bs = pre ++ skipn (N.to_nat (snd (bom bs))) bs /\ nlen pre = snd (bom bs) /\ real_enc (fst (bom bs)).
Proof.
  rewrite bom_spec.
  destruct (starts_with [0xFF; 0xFE] bs) eqn:E1.
  { apply starts_with_spec in E1. destruct E1 as [k ->]. exists [0xFF; 0xFE]. repeat split; discriminate. }
  destruct (starts_with [0xFE; 0xFF] bs) eqn:E2.
  { apply starts_with_spec in E2. destruct E2 as [k ->]. exists [0xFE; 0xFF]. repeat split; discriminate. }
  destruct (starts_with [0xEF; 0xBB; 0xBF] bs) eqn:E3.
  { apply starts_with_spec in E3. destruct E3 as [k ->]. exists [0xEF; 0xBB; 0xBF]. repeat split; discriminate. }
  exists []. repeat split; discriminate.
Qed.

Lemma determine_encoding_ok st input cs r : start st input -> rd_raw st = [] ->
  input_ok input ->
  dec (fst (bom input)) (snd (bom input)) (skipn (N.to_nat (snd (bom input))) input) cs r ->
  (exists st', determine_encoding st = ROk st' /\ live st' cs r [] /\ rd_enc st' = fst (bom input)
     /\ rd_unread st' = 0 /\ rd_buf_pre st' = 0 /\ incl (rd_plan st') (rd_plan st))
  \/ (exists st' err, determine_encoding st = RFail st' err /\ re_problem err = InputError /\ In None (rd_plan st)).
Proof.
  intros S Hraw [HB Hlen] Hd. unfold determine_encoding.
  destruct (fill3_ok 4 st input S) as [(st' & E & S' & Hr & Hc & Hi)|(st' & err & E & Hp & Hin)];
    [rewrite Hraw; cbn; lia|rewrite Hraw, nlen_nil; lia|..]; rewrite E; [|right; eauto].
  left.
  destruct S' as [S1 S2 S3 S4 S5 S6 S7 S8 S9].
  rewrite !(starts_with2 _ _ (rd_raw st') _ Hr), (starts_with3 _ _ _ (rd_raw st') _ Hr), S2.
  assert (Hgoal : exists st'0, ROk (set_enc_skip st' (fst (bom input)) (snd (bom input))) = ROk st'0 /\ live st'0 cs r [] /\
     rd_enc st'0 = fst (bom input) /\ rd_unread st'0 = 0 /\ rd_buf_pre st'0 = 0 /\ incl (rd_plan st'0) (rd_plan st)).
  { eexists. split; [reflexivity|]. unfold set_enc_skip.
    split; [|cbn; auto].
    destruct (bom_split input) as (pre & Ep & Hpre & Hre).
    set (k := snd (bom input)) in *. set (e := fst (bom input)) in *.
    assert (Hk : k <= 3). { subst k. rewrite bom_spec. repeat (destruct (starts_with _ _)); cbn; lia. }
    assert (Hkl : k <= nlen (rd_raw st')).
    { destruct Hr as [Hr|Hr]; [|lia]. rewrite Hr, app_nil_r in S2. rewrite S2, Ep, nlen_app. lia. }
    assert (Edata : skipn (N.to_nat k) (rd_raw st') ++ rd_rest st' = skipn (N.to_nat k) input).
    { rewrite <- S2, skipn_app. replace (N.to_nat k - length (rd_raw st'))%nat with 0%nat by (unfold nlen in *; lia). reflexivity. }
    clearbody k e.
    split; cbn [rd_enc rd_raw rd_rest rd_raw_pre rd_buf rd_buf_pre rd_unread rd_eof rd_offset rd_calls rd_plan]; auto.
    - rewrite Edata. apply Forall_skipn. assumption.
    - rewrite nlen_skipn. lia.
    - rewrite S4, S5. change (nlen []) with 0. unfold INPUT_BUFFER_SIZE, INPUT_RAW_BUFFER_SIZE. lia.
    - rewrite S7, Edata. exact Hd.
    - rewrite S7, nlen_skipn. rewrite <- S2, nlen_app in Hlen. lia. }
  rewrite (bom_spec input) in *.
  repeat match goal with |- context [if starts_with ?p input then _ else _] => destruct (starts_with p input) end;
  cbn [fst snd] in Hgoal; exact Hgoal.
Qed.

(* ---- update_buffer ---- *)

Lemma compact_live st cs r pend : live st cs r pend -> live (compact st) cs r pend /\ rd_buf_pre (compact st) = 0.
Proof.
  intros []. split; [|reflexivity]. split; cbn [compact rd_enc rd_raw rd_rest rd_raw_pre rd_buf rd_buf_pre rd_unread rd_eof rd_offset rd_calls rd_plan]; auto. lia.
Qed.

Lemma update_buffer_live len st cs r pend : req_ok len -> live st cs r pend -> rd_eof st = false ->
  fill_result len (rd_plan st) cs r pend (rd_enc st) (update_buffer len st).
Proof.
  intros Hlen L He. unfold update_buffer. rewrite He. cbn [andb].
  destruct (N.leb_spec len (rd_unread st)).
  - left. exists st, [], cs. rewrite app_nil_r. repeat (split; [solve [auto]|]). auto using incl_refl.
  - assert (Hne : encoding_eqb (rd_enc st) AnyEnc = false).
    { destruct L. unfold real_enc in *. destruct (rd_enc st); try reflexivity. congruence. }
    rewrite Hne. destruct (compact_live _ _ _ _ L) as [Lc Hc].
    change (rd_enc st) with (rd_enc (compact st)).
    apply fill_buffer_ok; auto.
    all: try (cbn [compact rd_plan]; apply incl_refl).
    all: try (cbn [compact rd_eof]; congruence).
    all: try (unfold fill_fuel; cbn [compact rd_rest]; lia).
Qed.

Lemma update_buffer_start len st input cs r : req_ok len -> start st input -> rd_raw st = [] -> rd_eof st = false ->
  input_ok input ->
  dec (fst (bom input)) (snd (bom input)) (skipn (N.to_nat (snd (bom input))) input) cs r ->
  fill_result len (rd_plan st) cs r [] (fst (bom input)) (update_buffer len st).
Proof.
  intros Hlen S Hraw He Hin Hd. unfold update_buffer. rewrite He. cbn [andb].
  assert (Hl : (len <=? rd_unread st) = false) by (rewrite (sr_unread _ _ S); unfold req_ok in Hlen; lia).
  rewrite Hl, (sr_enc _ _ S). cbn [encoding_eqb].
  destruct (determine_encoding_ok st input cs r S Hraw Hin Hd) as [(st' & E & L & Ee & Eu & Ep & Hi)|(st' & err & E & Hp & Hn)]; rewrite E.
  - destruct (compact_live _ _ _ _ L) as [Lc Hc]. rewrite <- Ee.
    change (rd_enc st') with (rd_enc (compact st')).
    assert (Hdisj : rd_eof st' = true -> rd_rest st' = []) by (apply (lv_eof _ _ _ _ L)).
    apply fill_buffer_ok; auto.
    all: try (cbn [compact rd_eof rd_raw]; intros; destruct (N.eq_dec (nlen (rd_raw st')) 0); auto).
    all: try congruence.
    all: try (unfold fill_fuel; cbn [compact rd_rest]; lia).
    all: try (cbn [compact rd_unread]; unfold req_ok in Hlen; lia).
  - right. right. exists st', err. auto.
Qed.

Lemma update_buffer_done len st pend : done st pend -> update_buffer len st = ROk st.
Proof. intros []. unfold update_buffer. rewrite dn_eof0, dn_raw0. reflexivity. Qed.

(* ---- consuming a character ---- *)

Lemma yaml_char_lt c : yaml_char c -> c < 0x200000.
Proof. unfold yaml_char. lia. Qed.

Lemma is_nul_enc c : yaml_char c -> is_nul (utf8_enc c) = false.
Proof.
  intros H. pose proof (yaml_char_nz _ H). unfold utf8_enc.
  destruct (c <? 0x80); [destruct c; [congruence|reflexivity]|].
  repeat (destruct (_ <? _)); destruct (_ + _); reflexivity.
Qed.

Lemma skip_char_live st cs r c pend : live st cs r (c :: pend) ->
  exists st', skip_char st = Some (utf8_enc c, st') /\ live st' cs r pend /\ rd_enc st' = rd_enc st
    /\ rd_eof st' = rd_eof st /\ rd_plan st' = rd_plan st.
Proof.
  intros [Lenc Lbytes Lraw Lbuf Lunread Lpend Lcap Leof Ldec Loff Lcalls].
  inversion Lpend as [|? ? Hc Hp]; subst.
  unfold skip_char. rewrite Lbuf.
  change (utf8 (c :: pend)) with (utf8_enc c ++ utf8 pend).
  destruct (utf8_enc_head_width c (utf8 pend) (yaml_char_lt _ Hc)) as (b & l & El & Hw).
  rewrite El, Hw, <- El. rewrite Lunread, nlen_cons, nlen_app.
  replace ((1 + nlen pend =? 0) || (nlen (utf8_enc c) + nlen (utf8 pend) <? nlen (utf8_enc c))) with false by lia.
  rewrite firstn_nlen_app, skipn_nlen_app.
  eexists. split; [reflexivity|]. split; [|auto].
  rewrite Lbuf in Lcap. change (utf8 (c :: pend)) with (utf8_enc c ++ utf8 pend) in Lcap. rewrite nlen_app in Lcap.
  split; cbn [rd_enc rd_raw rd_rest rd_raw_pre rd_buf rd_buf_pre rd_unread rd_eof rd_offset rd_calls rd_plan]; auto; lia.
Qed.

Lemma skip_char_done st c pend : done st (c :: pend) ->
  exists st', skip_char st = Some (utf8_enc c, st') /\ done st' pend /\ rd_enc st' = rd_enc st.
Proof.
  intros [Denc Deof Draw Drawcap Drest Dbuf Dunread Dpend Dcap Dcalls].
  inversion Dpend as [|? ? Hc Hp]; subst.
  unfold skip_char. rewrite Dbuf.
  change (utf8 (c :: pend) ++ [0]) with ((utf8_enc c ++ utf8 pend) ++ [0]).
  rewrite <- app_assoc.
  destruct (utf8_enc_head_width c (utf8 pend ++ [0]) (yaml_char_lt _ Hc)) as (b & l & El & Hw).
  rewrite El, Hw, <- El. rewrite Dunread, nlen_cons, nlen_app.
  replace ((1 + nlen pend + 1 =? 0) || (nlen (utf8_enc c) + nlen (utf8 pend ++ [0]) <? nlen (utf8_enc c))) with false by lia.
  rewrite firstn_nlen_app, skipn_nlen_app.
  eexists. split; [reflexivity|]. split; [|auto].
  rewrite Dbuf in Dcap. change (utf8 (c :: pend)) with (utf8_enc c ++ utf8 pend) in Dcap.
  rewrite <- app_assoc, nlen_app in Dcap.
  split; cbn [rd_enc rd_raw rd_rest rd_raw_pre rd_buf rd_buf_pre rd_unread rd_eof rd_offset rd_calls rd_plan]; auto; lia.
Qed.

Lemma skip_char_nul st : done st [] -> exists st', skip_char st = Some ([0], st').
Proof.
  intros [Denc Deof Draw Drawcap Drest Dbuf Dunread Dpend Dcap Dcalls].
  unfold skip_char. rewrite Dbuf, Dunread. eexists. reflexivity.
Qed.

(* ---- reading everything ---- *)

Definition expected (cs : list N) (r : option rerr) (e : encoding) (o : drained) : Prop :=
  match r with None => o = Text (map utf8_enc cs) e | Some err => o = ReadError err end.

Lemma hd_req reqs : Forall req_ok reqs -> req_ok (hd 1 reqs) /\ Forall req_ok (tl reqs).
Proof. intros H. destruct H; cbn; split; auto. unfold req_ok; lia. Qed.

Lemma drain_done fuel : forall reqs st pend acc, done st pend -> (length pend < fuel)%nat ->
  drain fuel reqs st acc = Text (rev acc ++ map utf8_enc pend) (rd_enc st).
Proof.
  induction fuel as [|fuel IH]; intros reqs st pend acc D Hf; [lia|].
  cbn [drain]. rewrite (update_buffer_done _ _ _ D).
  destruct pend as [|c pend].
  - destruct (skip_char_nul _ D) as [st' E]. rewrite E. cbn [is_nul map]. rewrite app_nil_r. reflexivity.
  - destruct (skip_char_done _ _ _ D) as (st' & E & D' & Ee). rewrite E.
    pose proof (dn_pend _ _ D) as Hp. inversion Hp; subst. rewrite is_nul_enc by assumption.
    rewrite (IH _ _ pend) by (auto; cbn in Hf; lia). cbn [rev map]. rewrite <- app_assoc, Ee. reflexivity.
Qed.

Definition plan_good (st : reader) : Prop := ~ In None (rd_plan st).

Lemma drain_live fuel : forall reqs st cs r pend acc, live st cs r pend -> rd_eof st = false -> plan_good st ->
  Forall req_ok reqs -> (length pend + length cs < fuel)%nat ->
  match r with None => drain fuel reqs st acc = Text (rev acc ++ map utf8_enc (pend ++ cs)) (rd_enc st)
             | Some err => drain fuel reqs st acc = ReadError err end.
Proof.
  induction fuel as [|fuel IH]; intros reqs st cs r pend acc L He Hp Hr Hf; [lia|].
  cbn [drain]. destruct (hd_req _ Hr) as [Hh Ht].
  destruct (update_buffer_live _ _ _ _ _ Hh L He) as
    [(st' & cs1 & cs2 & E & Ecs & L' & He' & Hu & Een & Hi)|[(st' & E & D & -> & Een)|(st' & err & E & [->|[Hn _]])]]; rewrite E.
  - destruct (pend ++ cs1) as [|c p] eqn:Ep.
    { exfalso. pose proof (lv_unread _ _ _ _ L'). rewrite nlen_nil in *. unfold req_ok in Hh. lia. }
    destruct (skip_char_live _ _ _ _ _ L') as (st2 & E2 & L2 & Een2 & Heo2 & Hpl2). rewrite E2.
    pose proof (lv_pend _ _ _ _ L') as Hpp. inversion Hpp; subst. rewrite is_nul_enc by assumption.
    assert (Hlen : (length p + length cs2 < fuel)%nat).
    { assert (HH := f_equal (@length N) Ep). rewrite app_length in *. cbn in HH. lia. }
    assert (Hgood : plan_good st2). { unfold plan_good. rewrite Hpl2. intros Hx. apply Hp, Hi, Hx. }
    specialize (IH (tl reqs) st2 cs2 r p (utf8_enc c :: acc) L2 ltac:(congruence) Hgood Ht Hlen).
    destruct r; [exact IH|]. rewrite IH. cbn [rev]. rewrite <- app_assoc, Een2, Een.
    rewrite (app_assoc pend), Ep. reflexivity.
  - destruct (pend ++ cs) as [|c p] eqn:Ep.
    + destruct (skip_char_nul _ D) as [st2 E2]. rewrite E2. cbn [is_nul map]. rewrite app_nil_r, Een. reflexivity.
    + destruct (skip_char_done _ _ _ D) as (st2 & E2 & D' & Ee). rewrite E2.
      pose proof (dn_pend _ _ D) as Hpp. inversion Hpp; subst. rewrite is_nul_enc by assumption.
      rewrite (drain_done _ _ _ p) by (auto; assert (HH := f_equal (@length N) Ep); rewrite app_length in *; cbn in HH; lia).
      cbn [rev map]. rewrite <- app_assoc. rewrite Ee, Een. reflexivity.
  - reflexivity.
  - contradiction.
Qed.

Lemma plan_ok_good plan : plan_ok plan -> ~ In None plan.
Proof. intros H Hin. unfold plan_ok in H. rewrite Forall_forall in H. apply (H _ Hin). reflexivity. Qed.

(* number of characters never exceeds number of bytes *)
Lemma dec_length e off bs cs r : real_enc e -> dec e off bs cs r -> (length cs <= length bs)%nat.
Proof.
  intros He H. induction H; [lia| |cbn; lia]. rewrite app_length. cbn [length].
  pose proof (enc_of_nonempty e v He). destruct (enc_of e v); [congruence|cbn; lia].
Qed.

Definition eff_enc (e : encoding) (input : list N) : encoding := match e with AnyEnc => fst (bom input) | _ => e end.
Definition eff_skip (e : encoding) (input : list N) : N := match e with AnyEnc => snd (bom input) | _ => 0 end.
Lemma eff_enc_real e input : real_enc (eff_enc e input).
Proof. destruct e; cbn; try discriminate. destruct (bom_split input) as (? & ? & ? & ?); assumption. Qed.

Lemma init_start input plan : start (init_reader AnyEnc input plan) input.
Proof. split; cbn; auto; try discriminate; try (split; constructor); try lia. Qed.

Lemma init_live e input plan cs r : real_enc e -> input_ok input -> dec e 0 input cs r ->
  live (init_reader e input plan) cs r [].
Proof.
  intros He [HB Hl] Hd. split; cbn; auto; try (split; constructor); try lia; try discriminate.
Qed.

(* What a full read gives, in terms of decoding the input as a whole. *)
Lemma read_all_dec e input plan reqs cs r :
  input_ok input -> plan_ok plan -> Forall req_ok reqs ->
  dec (eff_enc e input) (eff_skip e input) (skipn (N.to_nat (eff_skip e input)) input) cs r ->
  expected cs r (eff_enc e input) (read_all e input plan reqs).
Proof.
  intros Hin Hplan Hreq Hd. unfold read_all, expected.
  assert (Hlen : (length cs <= length input)%nat).
  { etransitivity; [eapply dec_length; [|exact Hd]; apply eff_enc_real|]. rewrite skipn_length. lia. }
  destruct e.
  2-4: (cbn [eff_skip] in Hd; change (skipn (N.to_nat 0) input) with input in Hd;
    match goal with |- context [init_reader ?e0 _ _] =>
    pose proof (drain_live (S (length input)) reqs _ cs r [] [] (init_live e0 input plan cs r ltac:(discriminate) Hin Hd) eq_refl (plan_ok_good _ Hplan) Hreq ltac:(cbn; lia)) as H end;
    destruct r; exact H).
  cbn [eff_skip eff_enc] in *.
  set (st := init_reader AnyEnc input plan).
  cbn [drain]. destruct (hd_req _ Hreq) as [Hh Ht].
  destruct (update_buffer_start _ st input cs r Hh (init_start _ _) eq_refl eq_refl Hin Hd) as
    [(st' & cs1 & cs2 & E & Ecs & L' & He' & Hu & Een & Hi)|[(st' & E & D & -> & Een)|(st' & err & E & [->|[Hn _]])]]; rewrite E.
  - cbn [app] in L'. destruct cs1 as [|c p].
    { exfalso. pose proof (lv_unread _ _ _ _ L'). rewrite nlen_nil in *. unfold req_ok in Hh. lia. }
    destruct (skip_char_live _ _ _ _ _ L') as (st2 & E2 & L2 & Een2 & Heo2 & Hpl2). rewrite E2.
    pose proof (lv_pend _ _ _ _ L') as Hpp. inversion Hpp; subst. rewrite is_nul_enc by assumption.
    assert (Hgood : plan_good st2). { unfold plan_good. rewrite Hpl2. intros Hx. apply (plan_ok_good _ Hplan), Hi, Hx. }
    assert (HH := drain_live (length input) (tl reqs) st2 cs2 r p [utf8_enc c] L2 ltac:(congruence) Hgood Ht).
    rewrite app_length in Hlen. cbn [length] in Hlen. specialize (HH ltac:(lia)).
    destruct r; [exact HH|]. rewrite HH. cbn [rev app map]. rewrite Een2, Een. reflexivity.
  - destruct cs as [|c p].
    + destruct (skip_char_nul _ D) as [st2 E2]. rewrite E2. cbn [is_nul map]. rewrite Een. reflexivity.
    + destruct (skip_char_done _ _ _ D) as (st2 & E2 & D' & Ee). rewrite E2.
      pose proof (dn_pend _ _ D) as Hpp. inversion Hpp; subst. rewrite is_nul_enc by assumption.
      cbn [length] in Hlen.
      rewrite (drain_done _ _ _ p) by (auto; lia). cbn [rev map app]. rewrite Ee, Een. reflexivity.
  - reflexivity.
  - exfalso. apply (plan_ok_good _ Hplan). exact Hn.
Qed.

Lemma eff_dec_total e input : input_ok input -> exists cs r,
  dec (eff_enc e input) (eff_skip e input) (skipn (N.to_nat (eff_skip e input)) input) cs r.
Proof.
  intros [HB _]. apply dec_total; [apply eff_enc_real|]. apply Forall_skipn. assumption.
Qed.

(* C01 *)
Lemma chunking_invisible e input plan1 plan2 reqs1 reqs2 :
  input_ok input -> plan_ok plan1 -> plan_ok plan2 -> Forall req_ok reqs1 -> Forall req_ok reqs2 ->
  read_all e input plan1 reqs1 = read_all e input plan2 reqs2.
Proof.
  intros Hin H1 H2 Hr1 Hr2. destruct (eff_dec_total e input Hin) as (cs & r & Hd).
  pose proof (read_all_dec e input plan1 reqs1 cs r Hin H1 Hr1 Hd) as E1.
  pose proof (read_all_dec e input plan2 reqs2 cs r Hin H2 Hr2 Hd) as E2.
  unfold expected in *. destruct r; congruence.
Qed.

Lemma utf8_enc_inj c1 c2 : yaml_char c1 -> yaml_char c2 -> utf8_enc c1 = utf8_enc c2 -> c1 = c2.
Proof.
  intros H1 H2 E.
  pose proof (decode_utf8_enc true c1 [] (yaml_char_scalar _ H1)) as E1.
  pose proof (decode_utf8_enc true c2 [] (yaml_char_scalar _ H2)) as E2.
  rewrite E, E2 in E1. injection E1. auto.
Qed.

Lemma is_text_dec e bs cs off : real_enc e -> is_text e bs cs <-> dec e off bs cs None.
Proof.
  intros He. rewrite dec_none_iff by assumption.
  destruct e; [congruence| | |]; cbn [is_text]; unfold is_utf8_text, is_utf16_text, utf8, utf16; cbn [enc_of]; reflexivity.
Qed.

(* C02-C04 in one: success exactly on texts, with exactly their characters *)
Lemma read_all_text e input plan reqs :
  input_ok input -> plan_ok plan -> Forall req_ok reqs ->
  forall chars e', read_all e input plan reqs = Text chars e' <->
    (e' = eff_enc e input /\ exists cs, chars = map utf8_enc cs /\ is_text (eff_enc e input) (skipn (N.to_nat (eff_skip e input)) input) cs).
Proof.
  intros Hin Hp Hr chars e'. destruct (eff_dec_total e input Hin) as (cs & r & Hd).
  pose proof (read_all_dec e input plan reqs cs r Hin Hp Hr Hd) as E. unfold expected in E.
  split.
  - intros E'. destruct r; [congruence|]. rewrite E in E'. injection E' as <- <-. split; [reflexivity|].
    exists cs. split; [reflexivity|]. eapply is_text_dec; [apply eff_enc_real|exact Hd].
  - intros (-> & cs' & -> & Ht). pose proof (proj1 (is_text_dec _ _ _ (eff_skip e input) (eff_enc_real e input)) Ht) as Hd'.
    pose proof (read_all_dec e input plan reqs cs' None Hin Hp Hr Hd'). assumption.
Qed.

Lemma read_all_safe e input plan reqs : input_ok input -> plan_ok plan -> Forall req_ok reqs ->
  (exists chars e', read_all e input plan reqs = Text chars e') \/ (exists err, read_all e input plan reqs = ReadError err).
Proof.
  intros Hin Hp Hr. destruct (eff_dec_total e input Hin) as (cs & r & Hd).
  pose proof (read_all_dec e input plan reqs cs r Hin Hp Hr Hd) as E. unfold expected in E.
  destruct r; eauto.
Qed.

(* ---- reachable states (C05) ---- *)

Inductive good (e : encoding) (input : list N) (st : reader) : Prop :=
  | good_start : e = AnyEnc -> start st input -> rd_raw st = [] -> rd_eof st = false -> good e input st
  | good_live cs r pend : live st cs r pend -> rd_eof st = false -> good e input st
  | good_done pend : done st pend -> good e input st.

Lemma reachable_good e input plan st : input_ok input -> reachable e input plan st -> good e input st.
Proof.
  intros Hin H. induction H as [|st n st' H IH Hn Eu|st c st' H IH Hu Es Hc].
  - destruct e; [apply good_start; auto; apply init_start|..];
    match goal with |- good ?e0 _ _ => destruct (dec_total e0 0 input ltac:(discriminate) (proj1 Hin)) as (cs & r & Hd);
      eapply good_live; [apply (init_live e0 input plan cs r ltac:(discriminate) Hin Hd)|reflexivity] end.
  - destruct IH as [He S Hr Heof|cs r pend L He|pend D].
    + destruct (eff_dec_total AnyEnc input Hin) as (cs & r & Hd). cbn [eff_enc eff_skip] in Hd.
      destruct (update_buffer_start _ st input cs r Hn S Hr Heof Hin Hd) as
        [(st2 & cs1 & cs2 & E & Ecs & L' & He' & Hu & Een & Hi)|[(st2 & E & D & -> & Een)|(st2 & err & E & _)]]; rewrite E in Eu;
        try discriminate; injection Eu as <-; [eapply good_live; eauto|eapply good_done; eauto].
    + destruct (update_buffer_live _ _ _ _ _ Hn L He) as
        [(st2 & cs1 & cs2 & E & Ecs & L' & He' & Hu & Een & Hi)|[(st2 & E & D & -> & Een)|(st2 & err & E & _)]]; rewrite E in Eu;
        try discriminate; injection Eu as <-; [eapply good_live; eauto|eapply good_done; eauto].
    + rewrite (update_buffer_done _ _ _ D) in Eu. injection Eu as <-. eapply good_done; eauto.
  - destruct IH as [He S Hr Heof|cs r pend L He|pend D].
    + rewrite (sr_unread _ _ S) in Hu. lia.
    + destruct pend as [|c0 pend]; [pose proof (lv_unread _ _ _ _ L) as HX; change (nlen []) with 0 in HX; lia|].
      destruct (skip_char_live _ _ _ _ _ L) as (st2 & E2 & L2 & Een2 & Heo2 & Hpl2). rewrite E2 in Es. injection Es as <- <-.
      eapply good_live; eauto.
    + destruct pend as [|c0 pend].
      * destruct (skip_char_nul _ D) as [st2 E2]. rewrite E2 in Es. injection Es as <- <-. discriminate.
      * destruct (skip_char_done _ _ _ D) as (st2 & E2 & D' & Ee). rewrite E2 in Es. injection Es as <- <-.
        eapply good_done; eauto.
Qed.

(* the observable part of the invariant *)
Lemma calls_fetched eof calls : calls_ok eof calls ->
  Forall (fun c => 1 <= asked c <= INPUT_RAW_BUFFER_SIZE /\ given c <= asked c) calls /\
  Forall (fun c => 0 < given c) (tl calls).
Proof.
  intros [H1 H2]. split.
  - eapply Forall_impl; [|exact H1]. cbn. intros c (? & ? & ?). lia.
  - destruct eof; [destruct H2 as (c & l & -> & ? & ?); assumption|].
    destruct calls; cbn [tl]; [constructor|]. inversion H2; assumption.
Qed.

Lemma live_fetched n st cs r pend : live st cs r pend -> n <= rd_unread st -> fetched n st.
Proof.
  intros [Lenc Lbytes Lraw Lbuf Lunread Lpend Lcap Leof Ldec Loff Lcalls] Hn.
  destruct (calls_fetched _ _ Lcalls). split; auto. exists pend. split; [assumption|]. left. repeat split; auto. lia.
Qed.
Lemma done_fetched n st pend : done st pend -> fetched n st.
Proof.
  intros [Denc Deof Draw Drawcap Drest Dbuf Dunread Dpend Dcap Dcalls].
  destruct (calls_fetched _ _ Dcalls). split; auto.
  - rewrite Draw. change (nlen []) with 0. lia.
  - exists pend. split; [assumption|]. right. auto.
Qed.

Lemma reachable_fetch e input plan st n : input_ok input -> reachable e input plan st -> req_ok n ->
  (exists st', update_buffer n st = ROk st' /\ fetched n st') \/ (exists st' err, update_buffer n st = RFail st' err).
Proof.
  intros Hin H Hn. destruct (reachable_good _ _ _ _ Hin H) as [He S Hr Heof|cs r pend L He|pend D].
  - destruct (eff_dec_total AnyEnc input Hin) as (cs & r & Hd). cbn [eff_enc eff_skip] in Hd.
    destruct (update_buffer_start _ st input cs r Hn S Hr Heof Hin Hd) as
        [(st2 & cs1 & cs2 & E & Ecs & L' & He' & Hu & Een & Hi)|[(st2 & E & D & -> & Een)|(st2 & err & E & _)]]; rewrite E; eauto.
    + left. exists st2. split; [reflexivity|]. eapply live_fetched; eauto.
    + left. exists st2. split; [reflexivity|]. eapply done_fetched; eauto.
  - destruct (update_buffer_live _ _ _ _ _ Hn L He) as
        [(st2 & cs1 & cs2 & E & Ecs & L' & He' & Hu & Een & Hi)|[(st2 & E & D & -> & Een)|(st2 & err & E & _)]]; rewrite E; eauto.
    + left. exists st2. split; [reflexivity|]. eapply live_fetched; eauto.
    + left. exists st2. split; [reflexivity|]. eapply done_fetched; eauto.
  - rewrite (update_buffer_done _ _ _ D). left. exists st. split; [reflexivity|]. eapply done_fetched; eauto.
Qed.

(* a fetched character can be consumed *)
Lemma reachable_skip e input plan st : input_ok input -> reachable e input plan st -> 0 < rd_unread st ->
  exists c st', skip_char st = Some (c, st') /\ rd_unread st' = rd_unread st - 1 /\ rd_buf st = c ++ rd_buf st'.
Proof.
  intros Hin H Hu. assert (X : exists c st', skip_char st = Some (c, st')).
  { destruct (reachable_good _ _ _ _ Hin H) as [He S Hr Heof|cs r pend L He|pend D].
  - rewrite (sr_unread _ _ S) in Hu. lia.
  - destruct pend as [|c0 pend]; [pose proof (lv_unread _ _ _ _ L) as HX; change (nlen []) with 0 in HX; lia|].
    destruct (skip_char_live _ _ _ _ _ L) as (st2 & E2 & _). eauto.
  - destruct pend as [|c0 pend].
    + destruct (skip_char_nul _ D) as [st2 E2]. eauto.
    + destruct (skip_char_done _ _ _ D) as (st2 & E2 & _). eauto. }
  destruct X as (c & st' & E). exists c, st'. split; [exact E|].
  unfold skip_char in E. destruct (rd_buf st) eqn:Eb; [discriminate|]. destruct (_ || _); [discriminate|].
  injection E as <- <-. cbn [rd_unread rd_buf]. rewrite firstn_skipn. auto.
Qed.

(* ---- where an error is reported ---- *)

Lemma utf8_trail_pos n : forall k value bs k' bad, utf8_trail n k value bs = Some (inl (k', bad)) -> k' < k + N.of_nat n.
Proof.
  induction n as [|n IH]; intros k value bs k' bad H; [discriminate|]. cbn [utf8_trail] in H.
  destruct bs as [|o bs]; [discriminate|]. destruct (negb _).
  - injection H as <- <-. lia.
  - apply IH in H. lia.
Qed.

Lemma decode_one_err_pos e eof raw p d v : decode_one e eof raw = Some (DErr p d v) -> d <= 3.
Proof.
  unfold decode_one. intros H.
  assert (X : forall o : option dres, match o with Some (DChar value _) => if char_allowed value then o else Some (DErr ControlCharacter 0 (Some value)) | _ => o end = Some (DErr p d v) ->
     d = 0 \/ o = Some (DErr p d v)).
  { intros o Ho. destruct o as [[value w| |]|]; auto. destruct (char_allowed value); [discriminate|]. injection Ho as <- <- <-. auto. }
  destruct (X _ H) as [->|Hd]; [lia|]. clear X H.
  destruct e; [discriminate| | |].
  - unfold decode_utf8 in Hd. destruct raw as [|o rest]; [discriminate|].
    destruct (utf8_width o =? 0); [injection Hd as <- <- <-; lia|].
    destruct (nlen _ <? _); [destruct eof; [injection Hd as <- <- <-; lia|discriminate]|].
    destruct (utf8_trail _ _ _ _) as [[[k bad]|value]|] eqn:E; [|destruct (negb _); [injection Hd as <- <- <-; lia|]; destruct (_ || _); [injection Hd as <- <- <-; lia|discriminate]|discriminate].
    injection Hd as <- <- <-. apply utf8_trail_pos in E.
    assert (utf8_width o <= 4) by (unfold utf8_width; repeat (destruct (_ =? _)); lia). lia.
  - unfold decode_utf16 in Hd. destruct raw as [|b0 [|b1 rest]]; try (destruct eof; [injection Hd as <- <- <-; lia|discriminate]).
    destruct (_ =? _); [injection Hd as <- <- <-; lia|]. destruct (_ =? _); [|discriminate].
    destruct rest as [|b2 [|b3 rest]]; try (destruct eof; [injection Hd as <- <- <-; lia|discriminate]).
    destruct (negb _); [injection Hd as <- <- <-; lia|discriminate].
  - unfold decode_utf16 in Hd. destruct raw as [|b0 [|b1 rest]]; try (destruct eof; [injection Hd as <- <- <-; lia|discriminate]).
    destruct (_ =? _); [injection Hd as <- <- <-; lia|]. destruct (_ =? _); [|discriminate].
    destruct rest as [|b2 [|b3 rest]]; try (destruct eof; [injection Hd as <- <- <-; lia|discriminate]).
    destruct (negb _); [injection Hd as <- <- <-; lia|discriminate].
Qed.

Lemma dec_error e off bs cs err : real_enc e -> dec e off bs cs (Some err) ->
  exists rest, bs = flat_map (enc_of e) cs ++ rest /\ Forall yaml_char cs /\ rest <> [] /\
    (forall c more, yaml_char c -> rest <> enc_of e c ++ more) /\
    off + nlen (flat_map (enc_of e) cs) <= re_offset err <= off + nlen (flat_map (enc_of e) cs) + 3.
Proof.
  intros He H. remember (Some err) as r eqn:Er. induction H; subst; [discriminate| |].
  - destruct (IHdec eq_refl) as (rest & -> & Hc & Hr & Hn & Hb). exists rest.
    cbn [flat_map]. rewrite <- app_assoc. split; [reflexivity|]. split; [constructor; assumption|].
    split; [assumption|]. split; [assumption|]. rewrite nlen_app. lia.
  - injection Er as <-. exists bs. cbn [flat_map app re_offset]. change (nlen []) with 0. split; [reflexivity|]. split; [constructor|].
    split; [assumption|]. split.
    + intros c more Hc ->. rewrite decode_one_enc in H0 by assumption. discriminate.
    + apply decode_one_err_pos in H0. lia.
Qed.

Lemma enc_of_flat e : real_enc e -> forall cs, flat_map (enc_of e) cs = encode e cs.
Proof. intros He cs. destruct e; [congruence|reflexivity..]. Qed.

Lemma read_all_error e input plan reqs err : input_ok input -> plan_ok plan -> Forall req_ok reqs ->
  read_all e input plan reqs = ReadError err ->
  exists cs rest, skipn (N.to_nat (eff_skip e input)) input = encode (eff_enc e input) cs ++ rest /\
    Forall yaml_char cs /\ rest <> [] /\
    (forall c more, yaml_char c -> rest <> encode (eff_enc e input) [c] ++ more) /\
    let p := eff_skip e input + nlen (encode (eff_enc e input) cs) in p <= re_offset err <= p + 3.
Proof.
  intros Hin Hp Hr E. destruct (eff_dec_total e input Hin) as (cs & r & Hd).
  pose proof (read_all_dec e input plan reqs cs r Hin Hp Hr Hd) as E'. unfold expected in E'.
  destruct r as [err'|]; [|congruence]. assert (err' = err) by congruence. subst err'.
  pose proof (eff_enc_real e input) as He.
  destruct (dec_error _ _ _ _ _ He Hd) as (rest & E1 & H2 & H3 & H4 & H5).
  exists cs, rest. rewrite <- enc_of_flat by assumption. split; [exact E1|]. split; [assumption|]. split; [assumption|]. split; [|exact H5].
  intros c more Hc. rewrite <- enc_of_flat by assumption. cbn [flat_map]. rewrite app_nil_r. auto.
Qed.
