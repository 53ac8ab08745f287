(* The reader with a read handler that may fail (C72). *)
From Verif Require Import Base Utf8Spec ReaderModel ReaderSpec ReaderProofs Types CutSpec.

Lemma given_done fuel : forall reqs st pend, done st pend -> (length pend < fuel)%nat -> given_chars fuel reqs st = map utf8_enc pend.
Proof.
  induction fuel as [|fuel IH]; intros reqs st pend D Hf; [lia|].
  cbn [given_chars]. rewrite (update_buffer_done _ _ _ D).
  destruct pend as [|c pend].
  - destruct (skip_char_nul _ D) as [st' E]. rewrite E. reflexivity.
  - destruct (skip_char_done _ _ _ D) as (st' & E & D' & Ee). rewrite E.
    pose proof (dn_pend _ _ D) as Hp. inversion Hp; subst. rewrite is_nul_enc by assumption.
    rewrite (IH _ _ pend) by (auto; cbn in Hf; lia). reflexivity.
Qed.
Definition input_failure (o : drained) (plan : list (option N)) : Prop := exists err, o = ReadError err /\ re_problem err = InputError /\ In None plan.
Lemma drain_any fuel : forall reqs st cs r pend acc, live st cs r pend -> rd_eof st = false ->
  Forall req_ok reqs -> (length pend + length cs < fuel)%nat ->
  (exists a b, pend ++ cs = a ++ b /\ given_chars fuel reqs st = map utf8_enc a) /\
  (input_failure (drain fuel reqs st acc) (rd_plan st) \/
  match r with None => drain fuel reqs st acc = Text (rev acc ++ map utf8_enc (pend ++ cs)) (rd_enc st)
             | Some err => drain fuel reqs st acc = ReadError err end).
Proof.
  induction fuel as [|fuel IH]; intros reqs st cs r pend acc L He Hr Hf; [lia|].
  cbn [drain given_chars]. destruct (hd_req _ Hr) as [Hh Ht].
  destruct (update_buffer_live _ _ _ _ _ Hh L He) as
    [(st' & cs1 & cs2 & E & Ecs & L' & He' & Hu & Een & Hi)|[(st' & E & D & -> & Een)|(st' & err & E & [->|[Hn Hq]])]]; rewrite E.
  - destruct (pend ++ cs1) as [|c p] eqn:Ep.
    { exfalso. pose proof (lv_unread _ _ _ _ L'). rewrite nlen_nil in *. unfold req_ok in Hh. lia. }
    destruct (skip_char_live _ _ _ _ _ L') as (st2 & E2 & L2 & Een2 & Heo2 & Hpl2). rewrite E2.
    pose proof (lv_pend _ _ _ _ L') as Hpp. inversion Hpp; subst. rewrite is_nul_enc by assumption.
    assert (Hlen : (length p + length cs2 < fuel)%nat).
    { assert (HH := f_equal (@length N) Ep). rewrite app_length in *. cbn in HH. lia. }
    specialize (IH (tl reqs) st2 cs2 r p (utf8_enc c :: acc) L2 ltac:(congruence) Ht Hlen).
    destruct IH as [(a & b & G1 & G2) IH]. split.
    + exists (c :: a), b. rewrite app_assoc, Ep. cbn [app map]. rewrite G1, G2. split; reflexivity.
    + destruct IH as [(err & I1 & I2 & I3)|IH]; [left; exists err; repeat split; auto; apply Hi; rewrite <- Hpl2; exact I3|right].
      destruct r; [exact IH|]. rewrite IH. cbn [rev]. rewrite <- app_assoc, Een2, Een.
      rewrite (app_assoc pend), Ep. reflexivity.
  - destruct (pend ++ cs) as [|c p] eqn:Ep.
    + destruct (skip_char_nul _ D) as [st2 E2]. rewrite E2. cbn [is_nul map]. rewrite app_nil_r, Een. split; [exists [], []; split; reflexivity|right; reflexivity].
    + destruct (skip_char_done _ _ _ D) as (st2 & E2 & D' & Ee). rewrite E2.
      pose proof (dn_pend _ _ D) as Hpp. inversion Hpp; subst. rewrite is_nul_enc by assumption.
      assert (Lp : (length p < fuel)%nat) by (assert (HH := f_equal (@length N) Ep); rewrite app_length in *; cbn in HH; lia).
      rewrite (drain_done _ _ _ p), (given_done _ _ _ p) by auto. split.
      * exists (c :: p), []. rewrite app_nil_r. split; reflexivity.
      * right. cbn [rev map]. rewrite <- app_assoc. rewrite Ee, Een. reflexivity.
  - split; [exists [], (pend ++ cs); split; reflexivity|right; reflexivity].
  - split; [exists [], (pend ++ cs); split; reflexivity|left]. exists err. auto.
Qed.

Lemma read_any e input plan reqs cs r :
  input_ok input -> Forall req_ok reqs ->
  dec (eff_enc e input) (eff_skip e input) (skipn (N.to_nat (eff_skip e input)) input) cs r ->
  (exists a b, cs = a ++ b /\ given_by e input plan reqs = map utf8_enc a) /\
  (input_failure (read_all e input plan reqs) plan \/ expected cs r (eff_enc e input) (read_all e input plan reqs)).
Proof.
  intros Hin Hreq Hd. unfold read_all, expected, given_by.
  assert (Hlen : (length cs <= length input)%nat).
  { etransitivity; [eapply dec_length; [|exact Hd]; apply eff_enc_real|]. rewrite skipn_length. lia. }
  destruct e.
  2-4: (cbn [eff_skip] in Hd; change (skipn (N.to_nat 0) input) with input in Hd;
    match goal with |- context [init_reader ?e0 _ _] =>
    exact (drain_any (S (length input)) reqs _ cs r [] [] (init_live e0 input plan cs r ltac:(discriminate) Hin Hd) eq_refl Hreq ltac:(cbn; lia)) end).
  cbn [eff_skip eff_enc] in *.
  set (st := init_reader AnyEnc input plan).
  cbn [drain given_chars]. destruct (hd_req _ Hreq) as [Hh Ht].
  destruct (update_buffer_start _ st input cs r Hh (init_start _ _) eq_refl eq_refl Hin Hd) as
    [(st' & cs1 & cs2 & E & Ecs & L' & He' & Hu & Een & Hi)|[(st' & E & D & -> & Een)|(st' & err & E & [->|[Hn Hq]])]]; rewrite E.
  - cbn [app] in L'. destruct cs1 as [|c p].
    { exfalso. pose proof (lv_unread _ _ _ _ L'). rewrite nlen_nil in *. unfold req_ok in Hh. lia. }
    destruct (skip_char_live _ _ _ _ _ L') as (st2 & E2 & L2 & Een2 & Heo2 & Hpl2). rewrite E2.
    pose proof (lv_pend _ _ _ _ L') as Hpp. inversion Hpp; subst. rewrite is_nul_enc by assumption.
    rewrite app_length in Hlen. cbn [length] in Hlen.
    destruct (drain_any (length input) (tl reqs) st2 cs2 r p [utf8_enc c] L2 ltac:(congruence) Ht ltac:(lia)) as [(a & b & G1 & G2) HH]. split.
    + exists (c :: a), b. cbn [app map]. rewrite G1, G2. split; reflexivity.
    + destruct HH as [(err & I1 & I2 & I3)|HH]; [left; exists err; repeat split; auto; rewrite Hpl2 in I3; exact (Hi _ I3)|right].
      destruct r; [exact HH|]. rewrite HH. cbn [rev app map]. rewrite Een2, Een. reflexivity.
  - destruct cs as [|c p].
    + destruct (skip_char_nul _ D) as [st2 E2]. rewrite E2. cbn [is_nul map]. rewrite Een. split; [exists [], []; split; reflexivity|right; reflexivity].
    + destruct (skip_char_done _ _ _ D) as (st2 & E2 & D' & Ee). rewrite E2.
      pose proof (dn_pend _ _ D) as Hpp. inversion Hpp; subst. rewrite is_nul_enc by assumption.
      cbn [length] in Hlen.
      rewrite (drain_done _ _ _ p), (given_done _ _ _ p) by (auto; lia). split.
      * exists (c :: p), []. rewrite app_nil_r. split; reflexivity.
      * right. cbn [rev map app]. rewrite Ee, Een. reflexivity.
  - split; [exists [], cs; split; reflexivity|right; reflexivity].
  - split; [exists [], cs; split; reflexivity|left]. exists err. auto.
Qed.

Lemma dec_begin e off bs cs r : dec e off bs cs r -> exists rest, bs = flat_map (enc_of e) cs ++ rest /\ Forall yaml_char cs.
Proof.
  induction 1 as [off|off v bs cs r Hv _ (rest & -> & F)|off bs p d v _ _].
  - exists []. split; [reflexivity|constructor].
  - exists rest. cbn [flat_map]. rewrite app_assoc. split; [reflexivity|constructor; assumption].
  - exists bs. split; [reflexivity|constructor].
Qed.
Theorem reader_cut e input plan reqs : input_ok input -> Forall req_ok reqs ->
  (exists cs rest, given_by e input plan reqs = map utf8_enc cs /\ Forall yaml_char cs /\ after_mark e input = encode (used_encoding e input) cs ++ rest) /\
  (read_all e input plan reqs = read_all e input [] [] \/
   exists err, read_all e input plan reqs = ReadError err /\ re_problem err = InputError /\ In None plan).
Proof.
  intros Hin Hr. destruct (eff_dec_total e input Hin) as (cs & r & Hd). destruct (read_any e input plan reqs cs r Hin Hr Hd) as [(a & b & -> & G) K].
  pose proof (eff_enc_real e input) as Re. split.
  - destruct (dec_begin _ _ _ _ _ Hd) as (rest & E & F). apply Forall_app in F as [F _]. exists a, (encode (used_encoding e input) b ++ rest).
    split; [exact G|]. split; [exact F|]. rewrite flat_map_app, !enc_of_flat, <- app_assoc in E by assumption. destruct e; exact E.
  - destruct K as [K|K]; [right; exact K|left]. pose proof (read_all_dec e input [] [] _ r Hin (Forall_nil _) (Forall_nil _) Hd) as E. unfold expected in *. destruct r; congruence.
Qed.
