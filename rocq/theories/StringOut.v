(* Output into a buffer of the caller (C80). *)
From Verif Require Import Base Utf8Spec ReaderModel ReaderSpec CharSpec Types TreeSpec WriterModel WriterSpec PenModel EmitModel EmitIOModel EmitSpec EmitWrite ApiModel ApiSpec Props_Api StringOutSpec.

(* ---- the same run with a handler that accepts everything ---- *)
Definition sim (w w0 : writer) : Prop := w_enc w = w_enc w0 /\ w_buf w = w_buf w0 /\ w_raw w = w_raw w0 /\ w_calls w = w_calls w0 /\ w_plan w0 = [].
Definition ext (w : writer) (o : wout) : Prop :=
  match o with WOk w' | WFail w' => exists more, w_calls w' = w_calls w ++ more | WUB => True end.
Definition pair_ (o o0 : wout) : Prop :=
  match o0 with
  | WOk w0' => (exists w', o = WOk w' /\ sim w' w0') \/
     (exists w' cs bs rest, o = WFail w' /\ w_calls w' = cs ++ [mkWcall bs false] /\ w_calls w0' = cs ++ mkWcall bs true :: rest)
  | _ => True
  end.
Lemma ext_refl w : ext w (WOk w).
Proof. exists []. rewrite app_nil_r. reflexivity. Qed.
Lemma ext_bind w o k : ext w o -> (forall w', ext w' (k w')) -> ext w (wbind o k).
Proof.
  intros H K. destruct o as [w'|w'|]; cbn [wbind]; [|exact H|exact I]. destruct H as [m1 H]. specialize (K w'). destruct (k w') as [w2|w2|]; [| |exact I]; destruct K as [m2 K]; exists (m1 ++ m2); rewrite K, H, app_assoc; reflexivity.
Qed.
Lemma ext_flush w : ext w (flush w).
Proof.
  unfold flush. destruct (w_buf w) as [|b buf]; [apply ext_refl|]. destruct (w_enc w); [exact I| | |]; cbn [handler_write].
  - destruct (hd true (w_plan w)); eexists; reflexivity.
  - destruct (recode _ _ _ _); [|exact I]. destruct (hd true (w_plan w)); eexists; reflexivity.
  - destruct (recode _ _ _ _); [|exact I]. destruct (hd true (w_plan w)); eexists; reflexivity.
Qed.
Lemma ext_needed w : ext w (flush_if_needed w).
Proof. unfold flush_if_needed. destruct (_ <? _); [apply ext_refl|apply ext_flush]. Qed.
Lemma ext_store w bs : ext w (store w bs).
Proof. unfold store. destruct (_ <? _); [exact I|]. exists []. rewrite app_nil_r. reflexivity. Qed.
Lemma ext_put w bs : ext w (put w bs).
Proof. apply ext_bind; [apply ext_needed|]. intros w'. apply ext_store. Qed.
Lemma ext_step w op : ext w (wstep w op).
Proof.
  destruct op; [apply ext_put| |apply ext_flush]. apply ext_bind; [apply ext_needed|]. intros w'. pose proof (ext_put w' bs) as K. destruct (put w' bs); exact K.
Qed.
Lemma ext_run ops : forall w, ext w (wrun w ops).
Proof. induction ops as [|op ops IH]; intros w; [apply ext_refl|]. apply ext_bind; [apply ext_step|exact IH]. Qed.

Lemma pair_ok w w0 : sim w w0 -> pair_ (WOk w) (WOk w0).
Proof. intros S. left. eauto. Qed.
Lemma pair_bind o o0 k : pair_ o o0 -> (forall w, ext w (k w)) -> (forall w w0, sim w w0 -> pair_ (k w) (k w0)) -> pair_ (wbind o k) (wbind o0 k).
Proof.
  intros H E K. destruct o0 as [w0|w0|]; [|exact I..]. cbn [wbind]. destruct H as [(w' & -> & S)|(w' & cs & bs & rest & -> & H1 & H2)]; cbn [wbind]; [apply K; exact S|].
  specialize (E w0). destruct (k w0) as [w1|w1|]; [|exact I..]. destruct E as [more E]. right. exists w', cs, bs, (rest ++ more). rewrite E, H2, <- app_assoc. auto.
Qed.
Lemma pair_flush w w0 : sim w w0 -> pair_ (flush w) (flush w0).
Proof.
  intros S. pose proof S as (E1 & E2 & E3 & E4 & E5). unfold flush. rewrite E1, E2, E3. destruct (w_buf w0) as [|b buf]; [apply pair_ok; exact S|].
  destruct (w_enc w0) eqn:Ee; [exact I| | |]; unfold handler_write; rewrite E5; cbn [hd tl].
  - destruct (hd true (w_plan w)).
    + left. eexists. split; [reflexivity|]. repeat split; cbn [w_calls]; rewrite ?E4; auto.
    + right. do 4 eexists. split; [reflexivity|]. cbn [w_calls]. rewrite E4. split; reflexivity.
  - destruct (recode _ _ _ _); [|exact I]. destruct (hd true (w_plan w)).
    + left. eexists. split; [reflexivity|]. repeat split; cbn [w_calls]; rewrite ?E4; auto.
    + right. do 4 eexists. split; [reflexivity|]. cbn [w_calls]. rewrite E4. split; reflexivity.
  - destruct (recode _ _ _ _); [|exact I]. destruct (hd true (w_plan w)).
    + left. eexists. split; [reflexivity|]. repeat split; cbn [w_calls]; rewrite ?E4; auto.
    + right. do 4 eexists. split; [reflexivity|]. cbn [w_calls]. rewrite E4. split; reflexivity.
Qed.
Lemma pair_needed w w0 : sim w w0 -> pair_ (flush_if_needed w) (flush_if_needed w0).
Proof.
  intros S. unfold flush_if_needed. rewrite (proj1 (proj2 S)). destruct (_ <? _); [apply pair_ok; exact S|apply pair_flush; exact S].
Qed.
Lemma pair_store w w0 bs : sim w w0 -> pair_ (store w bs) (store w0 bs).
Proof.
  intros (E1 & E2 & E3 & E4 & E5). unfold store. rewrite E2. destruct (_ <? _); [exact I|]. left. eexists. split; [reflexivity|]. repeat split; auto.
Qed.
Lemma flushed_idem w w1 : flush_if_needed w = WOk w1 -> flush_if_needed w1 = WOk w1.
Proof.
  intros H. assert (B : w_buf w1 = [] -> flush_if_needed w1 = WOk w1) by (intros E; unfold flush_if_needed; rewrite E; reflexivity).
  unfold flush_if_needed in H. destruct (nlen (w_buf w) + 5 <? OUTPUT_BUFFER_SIZE) eqn:T; [injection H as <-; unfold flush_if_needed; rewrite T; reflexivity|].
  apply B. unfold flush in H. destruct (w_buf w) as [|b buf] eqn:Eb; [injection H as <-; exact Eb|]. destruct (w_enc w); [discriminate| | |]; cbn [handler_write] in H.
  - destruct (hd true (w_plan w)); [injection H as <-; reflexivity|discriminate].
  - destruct (recode _ _ _ _); [|discriminate]. destruct (hd true (w_plan w)); [injection H as <-; reflexivity|discriminate].
  - destruct (recode _ _ _ _); [|discriminate]. destruct (hd true (w_plan w)); [injection H as <-; reflexivity|discriminate].
Qed.
Lemma break_put w bs : write_break w bs = put w bs.
Proof.
  unfold write_break, put. destruct (flush_if_needed w) as [w1|w1|] eqn:E; [|reflexivity..]. cbn [wbind]. rewrite (flushed_idem _ _ E). cbn [wbind].
  unfold store. destruct (_ <? _); reflexivity.
Qed.
Lemma pair_put w w0 bs : sim w w0 -> pair_ (put w bs) (put w0 bs).
Proof. intros S. apply pair_bind; [apply pair_needed; exact S|intros; apply ext_store|intros; apply pair_store; assumption]. Qed.
Lemma pair_run ops : forall w w0, sim w w0 -> pair_ (wrun w ops) (wrun w0 ops).
Proof.
  induction ops as [|op ops IH]; intros w w0 S; [apply pair_ok; exact S|]. cbn [wrun]. apply pair_bind; [|intros; apply ext_run|exact IH].
  destruct op; cbn [wstep]; rewrite ?break_put; [apply pair_put|apply pair_put|apply pair_flush]; exact S.
Qed.

(* ---- the buffer ---- *)
Lemma overlay_short mem a b : (length mem <= length a)%nat -> overlay mem (a ++ b) = overlay mem a.
Proof.
  intros H. unfold overlay. rewrite firstn_app. replace (length mem - length a)%nat with 0%nat by lia. cbn [firstn]. rewrite app_nil_r. f_equal.
  rewrite !skipn_all2; [reflexivity|lia|rewrite app_length; lia].
Qed.
Lemma fits_all size : forall blocks done, Forall (fun b => b = true) (fits size done blocks) -> done <= size -> done + nlen (concat blocks) <= size.
Proof.
  induction blocks as [|bs blocks IH]; intros done H L; cbn [fits concat] in *; [unfold nlen; cbn; lia|]. inversion H as [|x y Hx Hy]; subst. rewrite nlen_app.
  assert (Q : done + nlen bs <= size) by (apply orb_true_iff in Hx; destruct Hx as [Hx|Hx]; [apply N.leb_le in Hx; exact Hx|apply N.eqb_eq in Hx; lia]). specialize (IH _ Hy Q). lia.
Qed.
Lemma fits_last size bs : forall blocks done l, fits size done (blocks ++ [bs]) = l ++ [false] -> size < done + nlen (concat (blocks ++ [bs])).
Proof.
  induction blocks as [|b blocks IH]; intros done l H; cbn [app fits concat] in *.
  - destruct l as [|x l]; [|destruct l; discriminate]. injection H as H. apply orb_false_iff in H. destruct H as [H _]. apply N.leb_gt in H. rewrite app_nil_r. exact H.
  - rewrite nlen_app. destruct l as [|x l]; [destruct blocks; discriminate|]. injection H as _ H. specialize (IH _ _ H). lia.
Qed.
Lemma accepted_concat w : all_accepted w -> accepted w = concat (map w_bytes (w_calls w)).
Proof.
  unfold accepted, all_accepted. induction 1 as [|c l H _ IH]; [reflexivity|]. cbn. rewrite H, IH. reflexivity.
Qed.

Lemma runs plan e ops w0 : wrun (init_writer e []) ops = WOk w0 -> pair_ (wrun (init_writer e plan) ops) (WOk w0).
Proof. intros H. rewrite <- H. apply pair_run. repeat split. Qed.

(* a handler that accepts everything *)
Definition willing (o : wout) : Prop := match o with WOk w => w_plan w = [] | WFail _ => False | WUB => True end.
Lemma willing_bind o k : willing o -> (forall w, w_plan w = [] -> willing (k w)) -> willing (wbind o k).
Proof. intros H K. destruct o as [w|w|]; [exact (K w H)|exact H|exact I]. Qed.
Lemma willing_flush w : w_plan w = [] -> willing (flush w).
Proof.
  intros P. unfold flush. destruct (w_buf w) as [|b buf]; [exact P|]. destruct (w_enc w); [exact I| | |]; unfold handler_write; rewrite P; cbn [hd tl]; [reflexivity|destruct (recode _ _ _ _); [reflexivity|exact I]..].
Qed.
Lemma willing_put w bs : w_plan w = [] -> willing (put w bs).
Proof.
  intros P. apply willing_bind.
  - unfold flush_if_needed. destruct (_ <? _); [exact P|apply willing_flush; exact P].
  - intros w' P'. unfold store. destruct (_ <? _); [exact I|exact P'].
Qed.
Lemma willing_run ops : forall w, w_plan w = [] -> willing (wrun w ops).
Proof.
  induction ops as [|op ops IH]; intros w P; [exact P|]. apply willing_bind; [|exact IH]. destruct op; cbn [wstep]; rewrite ?break_put; [apply willing_put|apply willing_put|apply willing_flush]; exact P.
Qed.

Lemma compare g es : Forall text_event es -> exists w0 out,
  unlimited g es out /\ out = concat (map w_bytes (w_calls w0)) /\ forall plan,
  ((exists w, writer_of (emit_io plan g es) = Some w /\ (forall v, emit_io plan g es <> IWriter v) /\ w_calls w = w_calls w0 /\ all_accepted w) \/
   (exists w cs bs rest, emit_io plan g es = IWriter w /\ w_calls w = cs ++ [mkWcall bs false] /\ w_calls w0 = cs ++ mkWcall bs true :: rest)).
Proof.
  intros F. pose proof (write_failure_reported [] g es F) as R0. pose proof (fun plan => write_failure_reported plan g es F) as R.
  unfold unlimited. unfold emit_io in *. destruct (emit_all (init_emitter g) es) as [m|x m|]; [| |contradiction].
  - pose proof (willing_run (map op_bytes (p_ops (m_pen m))) (init_writer (g_encoding (m_cfg m)) []) eq_refl) as Wl.
    destruct (wrun (init_writer _ []) _) as [w0|w0|] eqn:E0; [|contradiction..].
    exists w0, (accepted w0). split; [exists w0; split; [reflexivity|left; eauto]|]. split; [apply accepted_concat; apply R0|]. intros plan. specialize (R plan). pose proof (runs plan _ _ _ E0) as P.
    destruct P as [(w & E & S)|(w & cs & bs & rest & E & S1 & S2)]; rewrite E in *.
    + left. exists w. repeat split; [discriminate|apply S|apply R].
    + right. exists w, cs, bs, rest. auto.
  - pose proof (willing_run (map op_bytes (p_ops (m_pen m))) (init_writer (g_encoding (m_cfg m)) []) eq_refl) as Wl.
    destruct (wrun (init_writer _ []) _) as [w0|w0|] eqn:E0; [|contradiction..].
    exists w0, (accepted w0). split; [exists w0; split; [reflexivity|right; eauto]|]. split; [apply accepted_concat; apply R0|]. intros plan. specialize (R plan). pose proof (runs plan _ _ _ E0) as P.
    destruct P as [(w & E & S)|(w & cs & bs & rest & E & S1 & S2)]; rewrite E in *.
    + left. exists w. repeat split; [discriminate|apply S|apply R].
    + right. exists w, cs, bs, rest. auto.
Qed.

Theorem string_output plan g es mem st : Forall text_event es -> nlen mem < 18446744073709551616 -> served mem (emit_io plan g es) st ->
  exists out, unlimited g es out /\ sw_mem st = overlay mem out /\ sw_written st = N.min (nlen mem) (nlen out) /\
    match emit_io plan g es with IWriter _ => nlen mem < nlen out | _ => nlen out <= nlen mem end.
Proof.
  intros F Sz (w & Hw & Hs). rewrite (C09_string_output mem _ Sz) in Hs. injection Hs as <- Hs. cbn [sw_mem sw_written].
  destruct (compare g es F) as (w0 & out & U & -> & K). destruct (K plan) as [(w' & Hw' & Nw & Ec & Ac)|(w' & cs & bs & rest & Hw' & Ec & E0)]; exists (concat (map w_bytes (w_calls w0))); (split; [exact U|]).
  - rewrite Hw' in Hw. injection Hw as ->. rewrite <- Ec. split; [reflexivity|]. split; [reflexivity|].
    assert (L : nlen (concat (map w_bytes (w_calls w))) <= nlen mem).
    { apply (fits_all (nlen mem) _ 0); [|lia]. rewrite Hs. apply Forall_map. exact Ac. }
    destruct (emit_io plan g es); try exact L. exfalso. eapply Nw. reflexivity.
  - rewrite Hw' in *. cbn [writer_of] in Hw. injection Hw as ->. rewrite Ec in Hs |- *. rewrite E0. rewrite !map_app in *. cbn [map w_bytes w_answer] in *.
    pose proof (fits_last _ _ _ _ _ Hs) as L. rewrite N.add_0_l in L.
    assert (Q : concat (map w_bytes cs ++ bs :: map w_bytes rest) = concat (map w_bytes cs ++ [bs]) ++ concat (map w_bytes rest)).
    { rewrite !concat_app. cbn. rewrite app_nil_r, app_assoc. reflexivity. }
    rewrite Q, overlay_short by (unfold nlen in L; lia). rewrite nlen_app. split; [reflexivity|]. split; [lia|lia].
Qed.

(* ---- the handler gives the answers it is asked for ---- *)
Section Follows.
Variable plan : list bool.
Definition follows (w : writer) : Prop := exists j, map w_answer (w_calls w) ++ w_plan w = plan ++ repeat true j.
Definition follows_out (o : wout) : Prop := match o with WOk w | WFail w => follows w | WUB => True end.
Lemma follows_bind o k : follows_out o -> (forall w, follows w -> follows_out (k w)) -> follows_out (wbind o k).
Proof. intros H K. destruct o as [w|w|]; [exact (K w H)|exact H|exact I]. Qed.
Lemma follows_write e b r w bs : follows w -> follows (mkWriter e b r (tl (w_plan w)) (w_calls w ++ [mkWcall bs (hd true (w_plan w))])).
Proof.
  intros [j H]. unfold follows. cbn [w_calls w_plan]. rewrite map_app, <- app_assoc. cbn [map w_answer app]. destruct (w_plan w) as [|a pl]; cbn [hd tl].
  - exists (S j). rewrite app_nil_r in H. rewrite H, <- app_assoc. f_equal. rewrite <- (repeat_cons j true). reflexivity.
  - exists j. exact H.
Qed.
Lemma follows_flush w : follows w -> follows_out (flush w).
Proof.
  intros H. unfold flush. destruct (w_buf w) as [|b buf]; [exact H|]. destruct (w_enc w); [exact I| | |]; unfold handler_write; cbn [w_plan w_calls].
  - destruct (hd true (w_plan w)) eqn:E; unfold follows_out; rewrite <- E; apply follows_write; exact H.
  - destruct (recode _ _ _ _); [|exact I]. destruct (hd true (w_plan w)) eqn:E; unfold follows_out; rewrite <- E; apply follows_write; exact H.
  - destruct (recode _ _ _ _); [|exact I]. destruct (hd true (w_plan w)) eqn:E; unfold follows_out; rewrite <- E; apply follows_write; exact H.
Qed.
Lemma follows_put w bs : follows w -> follows_out (put w bs).
Proof.
  intros P. apply follows_bind.
  - unfold flush_if_needed. destruct (_ <? _); [exact P|apply follows_flush; exact P].
  - intros w' P'. unfold store. destruct (_ <? _); [exact I|exact P'].
Qed.
Lemma follows_run ops : forall w, follows w -> follows_out (wrun w ops).
Proof.
  induction ops as [|op ops IH]; intros w P; [exact P|]. apply follows_bind; [|exact IH]. destruct op; cbn [wstep]; rewrite ?break_put; [apply follows_put|apply follows_put|apply follows_flush]; exact P.
Qed.
Lemma follows_emit g es w : writer_of (emit_io plan g es) = Some w -> follows w.
Proof.
  unfold emit_io. intros H. destruct (emit_all (init_emitter g) es) as [m|x m|]; [| |discriminate].
  - assert (K : follows_out (wrun (init_writer (g_encoding (m_cfg m)) plan) (map op_bytes (p_ops (m_pen m))))).
    { apply follows_run. exists 0%nat. cbn. rewrite app_nil_r. reflexivity. }
    destruct (wrun _ _); [| |discriminate]; injection H as <-; exact K.
  - assert (K : follows_out (wrun (init_writer (g_encoding (m_cfg m)) plan) (map op_bytes (p_ops (m_pen m))))).
    { apply follows_run. exists 0%nat. cbn. rewrite app_nil_r. reflexivity. }
    destruct (wrun _ _); [| |discriminate]; injection H as <-; exact K.
Qed.
End Follows.
Lemma fits_app size : forall a done b, fits size done (a ++ b) = fits size done a ++ fits size (done + nlen (concat a)) b.
Proof.
  induction a as [|x a IH]; intros done b; cbn [app fits concat]; [unfold nlen; cbn; rewrite N.add_0_r; reflexivity|]. rewrite IH, nlen_app, N.add_assoc. reflexivity.
Qed.
Lemma fits_length size : forall a done, length (fits size done a) = length a.
Proof. induction a as [|x a IH]; intros done; cbn [fits length]; [reflexivity|]. rewrite IH. reflexivity. Qed.
Lemma app_eq_length {A} (a b c d : list A) : a ++ c = b ++ d -> length a = length b -> a = b.
Proof.
  revert b. induction a as [|x a IH]; intros [|y b] H L; try discriminate; [reflexivity|]. injection H as -> H. f_equal. apply IH; [exact H|]. cbn in L. lia.
Qed.
Theorem string_served g es mem : Forall text_event es -> nlen mem < 18446744073709551616 -> exists plan st, served mem (emit_io plan g es) st.
Proof.
  intros F Sz.
  assert (Q : exists blocks0, forall plan, exists w rest, writer_of (emit_io plan g es) = Some w /\ blocks0 = map w_bytes (w_calls w) ++ rest).
  { destruct (compare g es F) as (w0 & out & _ & _ & K). exists (map w_bytes (w_calls w0)). intros plan. destruct (K plan) as [(w & Hw & _ & Ec & _)|(w & cs & bs & rest & Hw & Ec & E0)].
    - exists w, []. rewrite Ec, app_nil_r. auto.
    - exists w, (map w_bytes rest). rewrite Hw, Ec, E0, !map_app, <- app_assoc. auto. }
  destruct Q as (blocks0 & Q). set (plan := fits (nlen mem) 0 blocks0). destruct (Q plan) as (w & rest & Hw & Hb). exists plan. eexists. exists w. split; [exact Hw|].
  rewrite (C09_string_output mem _ Sz). f_equal. f_equal. destruct (follows_emit plan g es w Hw) as [j K]. unfold plan in K. rewrite Hb, fits_app, <- app_assoc in K. symmetry.
  apply (app_eq_length _ _ _ _ K). rewrite fits_length, !map_length. reflexivity.
Qed.
(* a complete stream: the bytes before *size_written are the encoded text *)
Theorem string_complete plan g es mem st m w : Forall text_event es -> well_formed es -> nlen mem < 18446744073709551616 ->
  served mem (emit_io plan g es) st -> emit_io plan g es = IOk m w ->
  firstn (N.to_nat (sw_written st)) (sw_mem st) = encode (g_encoding (m_cfg m)) (chars_of (p_ops (m_pen m))).
Proof.
  intros F W Sz (w' & Hw & Hs) E. rewrite E in Hw. injection Hw as <-. rewrite (C09_string_output mem _ Sz) in Hs. injection Hs as <- Hs. cbn [sw_mem sw_written].
  destruct (complete_output plan g es m w F W E) as (_ & A & _). rewrite <- A. pose proof (write_failure_reported plan g es F) as R. rewrite E in R. destruct R as [_ R]. rewrite (accepted_concat w R).
  assert (L : nlen (concat (map w_bytes (w_calls w))) <= nlen mem).
  { apply (fits_all (nlen mem) _ 0); [|lia]. rewrite Hs. apply Forall_map. exact R. }
  rewrite N.min_r by exact L. unfold overlay, nlen in *. rewrite firstn_app, (firstn_all2 (n := length mem)) by lia. rewrite Nat2N.id, firstn_all, Nat.sub_diag. cbn [firstn]. apply app_nil_r.
Qed.
