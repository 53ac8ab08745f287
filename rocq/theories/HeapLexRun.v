(* Each token scanner with memory delivers the token of ScanModel.v. *)
From Verif Require Import Base ReaderModel Utf8Spec CharSpec Types CursorModel ScanModel
  DocModel HeapModel HeapSpec HeapLemmas HeapLoaderModel HeapTokenModel HeapTokenSpec HeapScan HeapLexModel HeapLex.

Ltac io1 a c := apply sim_io_bind; intros a c _.
Lemma bind_ret {A} (m : cm A) c : m c = bind m (fun a => ret a) c.
Proof. unfold bind, ret. destruct (m c); reflexivity. Qed.
Ltac here := cbn [e_slots In]; tauto.
Lemma sim_bad {A B} own env (m : xm A) c f Q : @sim A B own env m c f CBad Q.
Proof. intros h _ _ _ N. congruence. Qed.
Lemma alpha_nonzero x : is_alpha x = true -> x <> 0.
Proof. intros E ->. vm_compute in E. discriminate. Qed.
Lemma nonzero_cstr s : nonzero s -> cstr s = s.
Proof.
  induction s as [|x s IH]; intros Z; [reflexivity|]. inversion Z; subst. cbn [cstr]. rewrite (proj2 (N.eqb_neq x 0)) by assumption. f_equal. auto.
Qed.
Lemma sim_map {A B C} env (m : xm A) (m' : cm B) (g : B -> C) c f (R : A -> B -> frame -> Prop) (Q : A -> C -> frame -> Prop) :
  sim0 env m c f (m' c) R -> (forall a b f', R a b f' -> Q a (g b) f') -> sim0 env m c f (bind m' (fun b => ret (g b)) c) Q.
Proof.
  intros M K h G H S NB NF. unfold bind, ret in *.
  assert (N1 : m' c <> CBad) by (intros E; rewrite E in NB; congruence).
  assert (N2 : m' c <> CFuel) by (intros E; rewrite E in NF; congruence).
  specialize (M h G H S N1 N2). destruct (m c f h) as [a c1 f1 h1|e f1 h1| |]; [| |exact M|exact M].
  - destruct M as (G1 & X1 & C1 & S1 & K1 & b & E & q). repeat (split; [assumption|]). rewrite E. eexists. split; [reflexivity|auto].
  - destruct M as (G1 & X1 & C1 & K1 & M). repeat (split; [assumption|]). destruct e; [rewrite M; reflexivity|exact M|exact M].
Qed.
(* the last step of a function that delivers a string *)
Lemma end_take {B} env c f (b : B) (Q : hstr -> B -> Prop) : e_slots env = [V0] -> keeps env null_frame f -> Q (f_0 f) b ->
  sim str_blocks env (x_take V0) c f (COk b c) (fun a b' f' _ => frame_blocks f' = [] /\ sound_str a /\ Q a b').
Proof.
  intros E K q. eapply sim_weaken; [apply sim_take; rewrite E; here|]. cbn beta. intros a b' f' _ (-> & S & -> & ->).
  split; [|auto]. unfold frame_blocks. cbn [set f_0 f_1 f_2 f_3].
  pose proof (K V1) as K1. pose proof (K V2) as K2. pose proof (K V3) as K3. cbn [get null_frame f_1 f_2 f_3] in *. rewrite E in *.
  rewrite K1, K2, K3 by (cbn [In]; intuition congruence). reflexivity.
Qed.
Ltac kept := repeat first [apply keeps_refl | eapply keeps_trans; [|apply keeps_set; here]].

Lemma run_directive_name env start c f :
  sim str_blocks env (x_directive_name start) c f (scan_directive_name start c)
    (fun s b f' _ => f' = f /\ sound_str s /\ text s b /\ nonzero b).
Proof.
  apply (sim_scope str_blocks env _ _ c f _ (fun s b _ => sound_str s /\ text s b /\ nonzero b)); [exact covers_0|].
  eapply sim_then; [apply sim_init; [here|reflexivity]|]. cbn beta. intros _ f1 (s1 & -> & T1 & _).
  unfold scan_directive_name. io1 u c1.
  eapply sim_bind; [apply sim_read_while; [here|exact T1]|]. cbn beta. intros _ b c2 f2 (s2 & more & -> & T2 & E2 & Z). cbn [app] in E2. subst more.
  eapply sim_then; [apply sim_empty; rewrite get_set; exact T2|]. cbn beta. intros e f3 (-> & ->).
  destruct b as [|x b]; [apply sim_err|]. io1 z c3. destruct (negb z); [apply sim_err|].
  apply (end_take (mkEnv (e_blocks env ++ frame_blocks f) [V0]) c3 _ _ (fun s b => text s b /\ nonzero b)); [reflexivity|kept|]. split; [exact T2|]. apply Z. exact alpha_nonzero.
Qed.

Lemma run_tag_handle env directive start c f :
  sim str_blocks env (x_tag_handle directive start) c f (scan_tag_handle directive start c)
    (fun s b f' _ => f' = f /\ sound_str s /\ text s b /\ nonzero b /\ b <> []).
Proof.
  apply (sim_scope str_blocks env _ _ c f _ (fun s b _ => sound_str s /\ text s b /\ nonzero b /\ b <> [])); [exact covers_0|].
  eapply sim_then; [apply sim_init; [here|reflexivity]|]. cbn beta. intros _ f1 (s1 & -> & T1 & _).
  unfold scan_tag_handle. io1 u c0.
  apply sim_io_bind. intros bang c1 E. apply check_at in E. destruct E as [-> ->]. unfold eqc at 1 3.
  destruct (nth 0 (c_text c0) 0 =? 0x21) eqn:E1; [|apply sim_err]. apply N.eqb_eq in E1. cbn [negb].
  eapply sim_bind; [apply sim_read; [here|rewrite get_set; exact T1]|]. cbn beta. rewrite E1. intros _ b c2 f2 (s2 & -> & T2 & E2).
  rewrite set_set. change ([] ++ utf8_enc 0x21) with [0x21] in E2. subst b. io1 u2 c3.
  eapply sim_bind; [apply sim_read_while; [here|rewrite get_set; exact T2]|]. cbn beta. intros _ b c4 f4 (s4 & more & -> & T4 & E4 & Z). rewrite set_set.
  specialize (Z alpha_nonzero). assert (Zb : nonzero b) by (rewrite E4; apply nonzero_app; [apply Forall_cons; [lia|apply Forall_nil]|exact Z]).
  apply sim_io_bind. intros bang c5 E. apply check_at in E. destruct E as [-> ->]. unfold eqc.
  rewrite (bind_ret _ c4).
  eapply (sim_bind _ _ _ _ _ _ c4 (set V0 null_frame s4) (fun _ b' f' => exists s, f' = set V0 null_frame s /\ text s b' /\ nonzero b' /\ b' <> [])).
  - destruct (nth 0 (c_text c4) 0 =? 0x21) eqn:E5.
    + apply N.eqb_eq in E5. eapply sim_weaken; [apply sim_read; [here|rewrite get_set; exact T4]|]. cbn beta. rewrite E5. intros _ b6 f6 _ (s6 & -> & T6 & E6).
      rewrite set_set. exists s6. split; [reflexivity|]. split; [exact T6|]. rewrite E6.
      split; [apply nonzero_app; [exact Zb|apply utf8_enc_nonzero; lia]|]. rewrite E4. discriminate.
    + assert (L : exists s, set V0 null_frame s4 = set V0 null_frame s /\ text s b /\ nonzero b /\ b <> []).
      { exists s4. split; [reflexivity|]. split; [exact T4|]. split; [exact Zb|]. rewrite E4. discriminate. }
      destruct directive; cbn [andb]; [|apply sim_done; exact L].
      assert (D : str_eqb b [0x21] = (nth 0 b 0 =? 0x21) && (nth 1 b 0 =? 0)).
      { rewrite E4. destruct more as [|x more]; [reflexivity|]. inversion Z; subst. cbn [app str_eqb nth].
        rewrite (proj2 (N.eqb_neq x 0)) by assumption. rewrite !andb_false_r. reflexivity. }
      rewrite D. eapply sim_then; [apply sim_at; [rewrite get_set; exact T4|left; lia]|]. cbn beta. intros a f5 (-> & ->).
      eapply sim_then; [apply sim_at; [rewrite get_set; exact T4|left; lia]|]. cbn beta. intros a f5 (-> & ->).
      destruct ((nth 0 b 0 =? 0x21) && (nth 1 b 0 =? 0)); cbn [negb]; [apply sim_done; exact L|apply sim_err].
  - cbn beta. intros _ b5 c5 f5 (s5 & -> & T5 & Z5 & N5).
    apply (end_take (mkEnv (e_blocks env ++ frame_blocks f) [V0]) c5 _ _ (fun s b => text s b /\ nonzero b /\ b <> [])); [reflexivity|kept|]. auto.
Qed.

Lemma run_uri_escapes env v start c f bs : In v (e_slots env) -> text (get v f) bs -> (length bs + 5 < t_size (get v f))%nat ->
  sim0 env (x_uri_escapes start v) c f (scan_uri_escapes start bs c) (fun _ b f' => exists s, f' = set v f s /\ text s b).
Proof.
  intros J T L. unfold x_uri_escapes, scan_uri_escapes.
  apply (sim_loop env (fun (width : nat) (st : nat * nat * list N) f' => let '(w, free, b) := st in
    width = w /\ exists s, f' = set v f s /\ text s b /\ (length b + free < t_size s)%nat)).
  - intros width [[w free] b] c1 f1 (-> & s & -> & T1 & L1). io1 u c2. io1 ok c3. destruct (negb ok); [apply sim_err|].
    io1 x c4. io1 y c5. cbv zeta.
    eapply (sim_bind _ env _ _ _ _ c5 (set v f s) (fun a b f' => a = b /\ f' = set v f s)).
    + destruct (w =? 0)%nat.
      * destruct (uri_width _ =? 0)%nat; [apply sim_err|apply (sim_ret env _ _ c5 _ (fun a b f' _ => a = b /\ f' = _)); auto].
      * destruct (negb _); [apply sim_err|apply (sim_ret env _ _ c5 _ (fun a b f' _ => a = b /\ f' = _)); auto].
    + cbn beta. intros w2 w2' c6 f6 (-> & ->). destruct free as [|rest]; [apply sim_bad|].
      eapply sim_then; [apply sim_put; rewrite ?get_set; [exact J|exact T1|cbn [length]; lia]|]. cbn beta. rewrite set_set || idtac. intros _ f7 (s7 & -> & T7 & Z7).
      rewrite set_set, get_set in *. io1 u7 c7. io1 u8 c8. io1 u9 c9.
      assert (W : (length (b ++ [(as_hex x * 16 + as_hex y)%N]) + rest < t_size s7)%nat) by (rewrite app_length; cbn [length]; lia).
      destruct w2' as [|[|w3]].
      * apply (sim_ret env (@inr nat unit tt) (@inr (nat * nat * list N) (list N) _) c9 _ (fun r r' f' _ => match r, r' with inl x, inl x' => _ | inr x, inr x' => _ | _, _ => False end)).
        intros _. exists s7. auto.
      * apply (sim_ret env (@inr nat unit tt) (@inr (nat * nat * list N) (list N) _) c9 _ (fun r r' f' _ => match r, r' with inl x, inl x' => _ | inr x, inr x' => _ | _, _ => False end)).
        intros _. exists s7. auto.
      * apply (sim_ret env (@inl nat unit (S w3)) (@inl (nat * nat * list N) (list N) (S w3, rest, _)) c9 _ (fun r r' f' _ => match r, r' with inl x, inl x' => _ | inr x, inr x' => _ | _, _ => False end)).
        intros _. split; [reflexivity|]. exists s7. auto.
  - split; [reflexivity|]. exists (get v f). rewrite set_get. unfold room. auto.
Qed.

Ltac goon := apply (sim_ret _ (inl _) (inl _) _ _ (fun r r' f' _ => match r, r' with inl x, inl x' => _ | inr x, inr x' => _ | _, _ => False end)); intros _.
Ltac leave := apply (sim_ret _ (inr _) (inr _) _ _ (fun r r' f' _ => match r, r' with inl x, inl x' => _ | inr x, inr x' => _ | _, _ => False end)); intros _.
(* the string in memory and the string that the receiver sees *)
Definition shown (s : hstr) (b : list N) : Prop := exists bs, text s bs /\ b = cstr bs.
Lemma run_tag_uri env uri_char head start c f hd : 
  match head with
  | None => hd = []
  | Some s => text s hd /\ nonzero hd /\ hd <> [] /\ sound_str s /\ (forall h, holds h (e_blocks env ++ frame_blocks f) -> holds h (str_blocks s))
  end ->
  sim str_blocks env (x_tag_uri uri_char head start) c f (scan_tag_uri uri_char hd start c)
    (fun s b f' _ => f' = f /\ sound_str s /\ shown s b).
Proof.
  intros Hh. apply (sim_scope str_blocks env _ _ c f _ (fun s b _ => sound_str s /\ shown s b)); [exact covers_0|].
  eapply (sim_then _ _ _ _ c null_frame _ (fun a _ f' => f' = null_frame /\ a = hd)).
  { destruct head as [s|].
    - destruct Hh as (T & Z & N & S & K). eapply sim_weaken; [apply sim_text; [apply T|exact S|]|].
      + cbn [e_blocks]. intros h H. apply K. change (frame_blocks null_frame) with (@nil nat) in H. rewrite app_nil_r in H. exact H.
      + cbn beta. intros a _ f' _ (-> & ->). split; [reflexivity|]. destruct T as (_ & -> & _). apply nonzero_cstr, Z.
    - subst hd. apply (sim_ret _ [] tt c _ (fun a _ f' _ => f' = null_frame /\ a = [])). auto. }
  cbn beta. intros a f0 (-> & ->).
  eapply sim_then; [apply sim_init; [here|reflexivity]|]. cbn beta. intros _ f1 (s1 & -> & T1 & _).
  eapply sim_then; [apply sim_fit; [here|rewrite get_set; exact T1]|]. cbn beta. intros _ f2 (s2 & -> & T2 & Z2). rewrite set_set.
  eapply (sim_then _ _ _ _ c _ _ (fun _ _ f' => exists s, f' = set V0 null_frame s /\ text s (tl hd))).
  { destruct (1 <? length hd)%nat eqn:E.
    - eapply sim_weaken; [apply sim_put; rewrite ?get_set; [here|exact T2|]|].
      + destruct hd as [|x r]; cbn [length tl] in *; lia.
      + cbn beta. intros _ _ f' _ (s3 & -> & T3 & _). rewrite set_set. exists s3. auto.
    - apply sim_done. exists s2. split; [reflexivity|]. apply Nat.ltb_ge in E. destruct hd as [|x [|y r]]; cbn [length tl] in *; try exact T2. lia. }
  cbn beta. intros _ f3 (s3 & -> & T3).
  unfold scan_tag_uri. io1 u c1.
  eapply sim_bind.
  { apply (sim_loop _ (fun (n : nat) (st : list N * bool) f' => snd st = negb (n =? 0)%nat /\ exists s, f' = set V0 null_frame s /\ text s (fst st))
             (fun (n : nat) (st : list N * bool) f' => snd st = negb (n =? 0)%nat /\ exists s, f' = set V0 null_frame s /\ text s (fst st))).
    - intros n [b some] c2 f2 (E & s & -> & T). cbn [fst snd] in *. io1 x c3. destruct x.
      + io1 pct c4.
        eapply (sim_bind _ _ _ _ (if pct then scan_uri_escapes start b else read b) _ c4 _ (fun _ b' f' => exists s, f' = set V0 null_frame s /\ text s b')).
        * destruct pct.
          { eapply sim_then; [apply sim_extend; [here|rewrite get_set; exact T]|]. cbn beta. intros _ f5 (s5 & -> & T5 & L5). rewrite set_set.
            eapply sim_weaken; [apply run_uri_escapes; rewrite ?get_set; [here|exact T5|exact L5]|]. cbn beta. intros _ b6 f6 _ (s6 & -> & T6). rewrite set_set. exists s6. auto. }
          { eapply sim_weaken; [apply sim_read; [here|rewrite get_set; exact T]|]. cbn beta. intros _ b6 f6 _ (s6 & -> & T6 & _). rewrite set_set. exists s6. auto. }
        * cbn beta. intros _ b5 c5 f5 (s5 & -> & T5). io1 u5 c6. goon. cbn [fst snd]. split; [reflexivity|]. exists s5. auto.
      + leave. cbn [fst snd]. split; [exact E|]. exists s. auto.
    - cbn [fst snd]. split; [destruct hd; reflexivity|]. exists s3. auto. }
  cbn beta. intros n [b some] c2 f2 (E & s & -> & T). cbn [fst snd] in *. rewrite E. destruct (n =? 0)%nat; cbn [negb].
  - eapply sim_then; [apply sim_extend; [here|rewrite get_set; exact T]|]. cbn beta. intros _ f5 _. apply sim_err.
  - apply (end_take (mkEnv (e_blocks env ++ frame_blocks f) [V0]) c2 _ _ shown); [reflexivity|kept|]. exists b. auto.
Qed.

Lemma run_tag_directive_value env start c f :
  sim (fun r => str_blocks (fst r) ++ str_blocks (snd r)) env (x_tag_directive_value start) c f (scan_tag_directive_value start c)
    (fun s b f' _ => f' = f /\ sound_str (fst s) /\ sound_str (snd s) /\ (text (fst s) (fst b) /\ nonzero (fst b)) /\ shown (snd s) (snd b)).
Proof.
  apply (sim_scope _ env _ _ c f _ (fun s b _ => sound_str (fst s) /\ sound_str (snd s) /\ (text (fst s) (fst b) /\ nonzero (fst b)) /\ shown (snd s) (snd b))); [exact covers_01|].
  unfold scan_tag_directive_value. io1 u c1. io1 u2 c2.
  eapply sim_bind; [eapply sim_call; [here|reflexivity|]|].
  { eapply sim_weaken; [apply run_tag_handle|]. cbn beta. intros s b f' _ (-> & S & T & Z & _). split; [reflexivity|]. split; [exact S|].
    exact (conj T Z). }
  cbn beta. intros _ handle c3 f3 (s3 & -> & T3 & Z3). io1 u3 c4. io1 x c5. destruct (negb x); [apply sim_err|]. io1 u4 c6.
  eapply sim_bind; [eapply sim_call; [here|reflexivity|]|].
  { eapply sim_weaken; [apply (run_tag_uri _ true None start c6 _ []); reflexivity|]. cbn beta. intros s b f' _ (-> & S & T). split; [reflexivity|]. split; [exact S|exact T]. }
  cbn beta. intros _ prefix c7 f7 (s7 & -> & T7). io1 u7 c8. io1 z c9. destruct (negb z); [apply sim_err|].
  intros h G H S _ _. unfold x_take, xbind, x_get, x_set, xret. cbn [set get f_0 f_1 f_2 f_3 null_frame] in *.
  split; [exact G|]. split; [apply ext_refl|]. split; [|split; [|split]].
  - intros b. unfold frame_blocks. cbn [f_0 f_1 f_2 f_3 fst snd]. unfold null_str, str_blocks. cbn [t_at ptr_blocks]. rewrite !cnt_app, !cnt_nil. lia.
  - repeat split; left; reflexivity.
  - intros v N. destruct v; cbn [e_slots In] in N; try tauto; reflexivity.
  - destruct S as (S0 & S1 & _). eexists. split; [reflexivity|]. split; [reflexivity|]. cbn [fst snd f_0 f_1] in *. auto 10.
Qed.

Definition token_is (h : heap) (t : htoken) (b : token) : Prop := token_at h t = b /\ sound_tok (ht_tok t).
Lemma run_anchor env anchor c f :
  sim token_blocks env (x_anchor anchor) c f (scan_anchor anchor c) (fun t b f' h => f' = f /\ token_is h t b).
Proof.
  apply (sim_scope token_blocks env _ _ c f _ (fun t b h => token_is h t b)); [exact covers_0|].
  eapply sim_then; [apply sim_init; [here|reflexivity]|]. cbn beta. intros _ f1 (s1 & -> & T1 & _).
  unfold scan_anchor. io1 start c1. io1 u c2. io1 u2 c3.
  eapply sim_bind; [apply sim_read_while; [here|rewrite get_set; exact T1]|]. cbn beta. intros _ b c4 f4 (s4 & more & -> & T4 & E4 & Z). rewrite set_set.
  cbn [app] in E4. subst more. specialize (Z alpha_nonzero). io1 e c5.
  eapply sim_then; [apply sim_empty; rewrite get_set; exact T4|]. cbn beta. intros em f5 (-> & ->).
  destruct b as [|x b]; [apply sim_err|]. io1 z c6. destruct (negb z); [apply sim_err|].
  apply sim_seal; [here|apply T4|intros p; destruct anchor; reflexivity|]. intros p h Np E. split; [reflexivity|].
  cbn [get set f_0] in E. destruct T4 as (_ & E0 & _). rewrite E0, nonzero_cstr in E by exact Z.
  unfold token_is, token_at. cbn [ht_tok ht_start ht_end ht_deep]. destruct anchor; cbn [tok_at sound_tok]; rewrite E; (split; [reflexivity|exact Np]).
Qed.

Lemma run_is_handle env v c f bs : text (get v f) bs -> nonzero bs ->
  sim0 env (x_is_handle v) c f (COk tt c) (fun a _ f' => f' = f /\ a = is_handle bs).
Proof.
  intros T Z. unfold x_is_handle. eapply sim_then; [apply sim_at; [exact T|left; lia]|]. cbn beta. intros a f' (-> & ->).
  assert (D : forall b, b = is_handle bs -> sim0 env (xret b) c f (COk tt c) (fun a _ f' => f' = f /\ a = is_handle bs)).
  { intros b E. apply (sim_ret env b tt c f (fun a _ f' _ => f' = f /\ a = is_handle bs)). auto. }
  destruct (nth 0 bs 0 =? 0x21) eqn:E0; cbn [negb].
  - eapply sim_then; [apply sim_at; [exact T|left; lia]|]. cbn beta. intros a f' (-> & ->).
    apply N.eqb_eq in E0. destruct bs as [|x [|y r]]; [discriminate E0|cbn [nth] in E0; subst x; apply D; reflexivity|].
    cbn [nth] in E0. subst x. cbn [nth]. assert (Ny : y <> 0) by (inversion Z as [|? ? ? Z2]; inversion Z2; assumption).
    rewrite (proj2 (N.eqb_neq y 0)) by exact Ny. apply sim_sound. intros S. apply sim_get.
    eapply sim_then; [apply sim_text; [apply T|apply sound_get, S|intros h H; exact (holds_get h _ v f H)]|]. cbn beta. intros a f' (-> & ->).
    rewrite (proj1 (proj2 T)), nonzero_cstr by exact Z.
    eapply sim_then; [apply sim_at; [exact T|right; cbn [length]; lia]|]. cbn beta. intros a f' (-> & ->).
    apply D. cbn [is_handle]. f_equal.
    assert (La : forall (l : list N) x, l <> [] -> nth (length l - 1) l x = last l x).
    { clear. induction l as [|a l IH]; intros x N; [congruence|]. destruct l as [|b l]; [reflexivity|]. cbn [length last]. 
      replace (S (S (length l)) - 1)%nat with (S (S (length l) - 1)) by lia. cbn [nth]. apply IH. discriminate. }
    apply La. discriminate.
  - apply D. apply N.eqb_neq in E0. destruct bs as [|x [|y r]]; cbn [nth] in E0; try reflexivity.
    + cbn [is_handle]. destruct x as [|p]; [reflexivity|]. repeat (destruct p as [p|p|]; try reflexivity).
    + cbn [is_handle]. destruct x as [|p]; [reflexivity|]. repeat (destruct p as [p|p|]; try reflexivity); congruence.
Qed.

Lemma run_directive env c f :
  sim token_blocks env x_directive c f (scan_directive c) (fun t b f' h => f' = f /\ token_is h t b).
Proof.
  apply (sim_scope token_blocks env _ _ c f _ (fun t b h => token_is h t b)); [exact covers_210|].
  unfold scan_directive. io1 start c1. io1 u c2.
  eapply sim_bind; [eapply sim_call; [here|reflexivity|]|].
  { eapply sim_weaken; [apply run_directive_name|]. cbn beta. intros s b f' _ (-> & S & T & Z). split; [reflexivity|]. split; [exact S|]. exact (conj T Z). }
  cbn beta. intros _ name c3 f3 (s3 & -> & T3 & Z3). apply sim_get. apply sim_sound. intros S3.
  eapply sim_then; [apply sim_text; [apply T3|apply (sound_get V0 _ S3)|intros h H; exact (holds_get h _ V0 _ H)]|]. cbn beta. intros a f4 (-> & ->).
  cbn [set get f_0 f_1 f_2 f_3 null_frame]. rewrite (proj1 (proj2 T3)), nonzero_cstr by exact Z3.
  eapply (sim_bind _ _ _ _ _ _ c3 _ (fun (r : option (N * N) * mark) (tok : token) f' => match fst r with
    | Some v => tok = mkToken (TVersion (fst v) (snd v)) start (snd r) false /\ f' = mkFrame s3 null_str null_str null_str
    | None => exists s1 s2 hb pb, f' = mkFrame s3 s1 s2 null_str /\ tok = mkToken (TTagDirective hb pb) start (snd r) false /\
                text s1 hb /\ nonzero hb /\ shown s2 pb
    end)).
  - destruct (str_eqb name yaml_name); [|destruct (str_eqb name tag_name); [|apply sim_err]].
    + io1 v c4. io1 e c5. apply (sim_ret _ (Some v, e) _ c5 _ (fun r tok f' _ => match fst r with Some v => _ | None => _ end)). cbn [fst snd]. auto.
    + eapply sim_bind; [eapply sim_call2; [discriminate|here|here|reflexivity|reflexivity|]|].
      { eapply sim_weaken; [apply run_tag_directive_value|]. cbn beta. intros s b f' _ (-> & S1 & S2 & W). split; [reflexivity|]. split; [exact S1|]. split; [exact S2|]. exact W. }
      cbn beta. intros _ v c4 f4 (s & -> & (Ts & Zs) & Us). io1 e c5. cbn [set get f_0 f_1 f_2 f_3 null_frame].
      apply (sim_ret _ (None, e) _ c5 _ (fun r tok f' _ => match fst r with Some v => _ | None => _ end)). cbn [fst snd]. intros _.
      exists (fst s), (snd s), (fst v), (snd v). auto.
  - cbn beta. intros [r e] tok c4 f4 R. cbn [fst snd] in R. io1 u5 c5.
    eapply sim_then; [apply sim_del; here|]. cbn beta. intros _ f6 ->. cbn [fst snd]. destruct r as [v|].
    + destruct R as (-> & ->). intros h G H S _ _. unfold xret. split; [exact G|]. split; [apply ext_refl|].
      split; [intros b; reflexivity|]. split; [exact S|]. split; [apply keeps_refl|]. eexists. split; [reflexivity|]. split; [reflexivity|]. split; [reflexivity|exact I].
    + destruct R as (s1 & s2 & hb & pb & -> & -> & T1 & Z1 & (bs & T2 & ->)). cbn [set get f_0 f_1 f_2 f_3].
      apply sim_seal2; [discriminate|here|here|apply T1|apply T2|reflexivity|]. intros p q h Np Nq Ep Eq. cbn [get f_1 f_2] in *. split; [reflexivity|].
      rewrite (proj1 (proj2 T1)), nonzero_cstr in Ep by exact Z1. rewrite (proj1 (proj2 T2)) in Eq.
      unfold token_is, token_at. cbn [ht_tok ht_start ht_end ht_deep tok_at sound_tok]. rewrite Ep, Eq. auto.
Qed.

Lemma run_tag env flow c f :
  sim token_blocks env (x_tag flow) c f (scan_tag flow c) (fun t b f' h => f' = f /\ token_is h t b).
Proof.
  apply (sim_scope token_blocks env _ _ c f _ (fun t b h => token_is h t b)); [exact covers_01|].
  unfold scan_tag. io1 start c1. io1 u c2. io1 verbatim c3.
  eapply (sim_bind _ _ _ _ _ _ c3 _ (fun (_ : unit) (tag : tok) f' => exists s0 s1, f' = mkFrame s0 s1 null_str null_str /\
    t_at s0 <> None /\ t_at s1 <> None /\ tag = TTag (cstr (t_bytes s0)) (cstr (t_bytes s1)))).
  - destruct verbatim.
    + eapply sim_then; [apply sim_malloc; [here|reflexivity|cbn [length]; lia]|]. cbn beta. intros _ f4 (s4 & -> & P4 & E4).
      io1 u4 c4. io1 u5 c5.
      eapply sim_bind; [eapply sim_call; [here|reflexivity|]|].
      { eapply sim_weaken; [apply (run_tag_uri _ true None start c5 _ []); reflexivity|]. cbn beta. intros s b f' _ (-> & S & T). split; [reflexivity|]. split; [exact S|exact T]. }
      cbn beta. intros _ suffix c6 f6 (s6 & -> & bs & T6 & ->). io1 close c7. destruct (negb close); [apply sim_err|].
      cbn [set get f_0 f_1 f_2 f_3 null_frame].
      apply (sim_map _ (io skip) skip (fun _ => TTag [] (cstr bs)) c7 _ _ _ (sim_io _ skip c7 _)). intros _ _ f' (_ & ->).
      exists s4, s6. rewrite E4, (proj1 (proj2 T6)). split; [reflexivity|]. split; [exact P4|]. split; [apply T6|reflexivity].
    + eapply sim_bind; [eapply sim_call; [here|reflexivity|]|].
      { eapply sim_weaken; [apply run_tag_handle|]. cbn beta. intros s b f' _ (-> & S & W). split; [reflexivity|]. split; [exact S|]. exact (conj S W). }
      cbn beta. intros _ handle c4 f4 (s4 & -> & S4 & T4 & Z4 & N4).
      eapply sim_then; [apply run_is_handle; [exact T4|exact Z4]|]. cbn beta. intros a f5 (-> & ->). destruct (is_handle handle).
      * eapply (sim_map _ (call V1 _) (scan_tag_uri false [] start) (fun suffix => TTag handle suffix)).
        { eapply sim_call; [here|reflexivity|]. eapply sim_weaken; [apply (run_tag_uri _ false None start c4 _ []); reflexivity|].
          cbn beta. intros s b f' _ (-> & S & T). split; [reflexivity|]. split; [exact S|exact T]. }
        cbn beta. intros _ suffix f6 (s6 & -> & bs & T6 & ->). exists s4, s6. split; [reflexivity|]. split; [apply T4|]. split; [apply T6|].
        rewrite (proj1 (proj2 T4)), (proj1 (proj2 T6)), (nonzero_cstr handle) by exact Z4. reflexivity.
      * apply sim_get. cbn [set get f_0 f_1 f_2 f_3 null_frame].
        eapply sim_bind; [eapply sim_call; [here|reflexivity|]|].
        { eapply sim_weaken; [apply (run_tag_uri _ false (Some s4) start c4 _ handle)|].
          - split; [exact T4|]. split; [exact Z4|]. split; [exact N4|]. split; [exact S4|]. intros h H. exact (holds_get h _ V0 _ H).
          - cbn beta. intros s b f' _ (-> & S & T). split; [reflexivity|]. split; [exact S|exact T]. }
        cbn beta. intros _ suffix c6 f6 (s6 & -> & bs & T6 & ->). cbn [set get f_0 f_1 f_2 f_3 null_frame].
        eapply sim_then; [apply sim_del; here|]. cbn beta. intros _ f7 ->.
        eapply sim_then; [apply sim_malloc; [here|reflexivity|cbn [length]; lia]|]. cbn beta. intros _ f8 (s8 & -> & P8 & E8).
        cbn [set get f_0 f_1 f_2 f_3 null_frame].
        eapply sim_then; [apply sim_at; [exact T6|left; lia]|]. cbn beta. intros z f9 (-> & ->).
        assert (D : (nth 0 bs 0 =? 0) = match cstr bs with [] => true | _ => false end).
        { destruct bs as [|x r]; [reflexivity|]. cbn [nth cstr]. destruct (x =? 0); reflexivity. }
        rewrite D. destruct (cstr bs) as [|x r] eqn:Eb.
        { intros h G H S _ _. unfold x_take, xbind, x_get, x_set. cbn [set get f_0 f_1 f_2 f_3 xret].
          split; [exact G|]. split; [apply ext_refl|]. split; [|split; [|split]].
          - intros b. unfold frame_blocks. cbn [f_0 f_1 f_2 f_3 app]. rewrite !cnt_app. lia.
          - destruct S as (A0 & A1 & A2 & A3). cbn [f_0 f_1 f_2 f_3] in *. repeat split; assumption.
          - intros v N. destruct v; cbn [e_slots In] in N; try tauto; reflexivity.
          - eexists. split; [reflexivity|]. exists s6, s8. split; [reflexivity|]. split; [apply T6|]. split; [exact P8|].
            rewrite (proj1 (proj2 T6)), Eb, E8. reflexivity. }
        { apply sim_done. exists s8, s6. split; [reflexivity|]. split; [exact P8|]. split; [apply T6|].
          rewrite (proj1 (proj2 T6)), Eb, E8. reflexivity. }
  - cbn beta. intros _ tag c4 f4 (s0 & s1 & -> & P0 & P1 & ->). io1 u4 c5. io1 z c6.
    eapply (sim_bind _ _ _ _ _ _ c6 _ (fun a b f' => a = b /\ f' = mkFrame s0 s1 null_str null_str)).
    { destruct z; [apply (sim_ret _ true true c6 _ (fun a b f' _ => a = b /\ f' = _)); auto|apply sim_io]. }
    cbn beta. intros comma comma' c7 f7 (-> & ->). destruct (negb comma'); [apply sim_err|]. io1 e c8.
    apply sim_seal2; [discriminate|here|here|exact P0|exact P1|reflexivity|]. intros p q h Np Nq Ep Eq. cbn [get f_0 f_1] in *. split; [reflexivity|].
    unfold token_is, token_at. cbn [ht_tok ht_start ht_end ht_deep tok_at sound_tok]. rewrite Ep, Eq. auto.
Qed.
