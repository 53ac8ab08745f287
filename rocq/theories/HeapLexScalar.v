(* The scalar scanners with memory. *)
From Verif Require Import Base ReaderModel Utf8Spec CharSpec Types CursorModel ScanModel
  DocModel HeapModel HeapSpec HeapLemmas HeapLoaderModel HeapTokenModel HeapTokenSpec HeapScan HeapLexModel HeapLex HeapLexRun.

Lemma starts_lf_at l : starts_lf l = (nth 0 l 0 =? 0xA).
Proof.
  destruct l as [|x r]; [reflexivity|]. cbn [starts_lf nth]. destruct x as [|p]; [reflexivity|]. repeat (destruct p as [p|p|]; try reflexivity).
Qed.
Lemma empty_at l : nonzero l -> (nth 0 l 0 =? 0) = negb (nonempty l).
Proof. intros Z. destruct l as [|x r]; [reflexivity|]. inversion Z; subst. cbn [nth nonempty negb]. apply N.eqb_neq. assumption. Qed.
Lemma put_ok s bs c : (length bs <= 5)%nat -> put s bs c = COk (s ++ bs) c.
Proof. intros L. unfold put, room. rewrite (proj2 (Nat.leb_le _ _) L). reflexivity. Qed.
(* STRING_EXTEND and up to five bytes *)
Lemma sim_extend_put env v c f bs ds : In v (e_slots env) -> text (get v f) bs -> (length ds <= 5)%nat ->
  sim0 env (x_extend v ;! x_put v ds) c f (put bs ds c) (fun _ b f' => exists s, f' = set v f s /\ text s b).
Proof.
  intros J T L. rewrite put_ok by exact L. eapply sim_then; [apply sim_extend; [exact J|exact T]|]. cbn beta. intros _ f1 (s1 & -> & T1 & L1).
  intros h G H S _ _. assert (W := sim_put env v c (set v f s1) bs ds J). rewrite get_set in W.
  specialize (W T1 ltac:(lia) h G H S ltac:(congruence) ltac:(congruence)).
  destruct (x_put v ds c (set v f s1) h) as [a c3 f3 h3|e f3 h3| |]; [| |exact W|exact W].
  - destruct W as (G1 & X1 & C1 & S1 & K1 & b & E & q). repeat (split; [assumption|]). injection E as <- <-.
    eexists. split; [reflexivity|]. destruct q as (s' & -> & T2 & _). exists s'. rewrite set_set. auto.
  - destruct W as (G1 & X1 & C1 & K1 & W). repeat (split; [assumption|]). destruct e; [discriminate W|exact W|exact W].
Qed.
(* a step whose result is known *)
Lemma sim_gives {A B} env (m : xm A) c f (b : B) (R : A -> unit -> frame -> Prop) (Q : A -> B -> frame -> Prop) :
  sim0 env m c f (COk tt c) R -> (forall a f', R a tt f' -> Q a b f') -> sim0 env m c f (COk b c) Q.
Proof.
  intros M K h G H S _ _. specialize (M h G H S ltac:(congruence) ltac:(congruence)).
  destruct (m c f h) as [a c1 f1 h1|e f1 h1| |]; [| |exact M|exact M].
  - destruct M as (G1 & X1 & C1 & S1 & K1 & b' & E & q). repeat (split; [assumption|]). injection E as <- <-. exists b. auto.
  - destruct M as (G1 & X1 & C1 & K1 & M). repeat (split; [assumption|]). destruct e; [discriminate M|exact M|exact M].
Qed.

Lemma run_block_scalar_breaks env pindent indent v start c f bs : In v (e_slots env) -> text (get v f) bs ->
  sim0 env (x_block_scalar_breaks pindent indent v start) c f (scan_block_scalar_breaks pindent indent bs start c)
    (fun r r' f' => r = (fst (fst r'), snd r') /\ exists s, f' = set v f s /\ text s (snd (fst r')) /\ (nonzero bs -> nonzero (snd (fst r')))).
Proof.
  intros J T. unfold x_block_scalar_breaks, scan_block_scalar_breaks. io1 e c1.
  eapply sim_bind.
  { apply (sim_loop env (fun (st : Z * mark) (st' : Z * list N * mark) f' => st = (fst (fst st'), snd st') /\ exists s, f' = set v f s /\ text s (snd (fst st')) /\ (nonzero bs -> nonzero (snd (fst st'))))
      (fun (st : Z * mark) (st' : Z * list N * mark) f' => st = (fst (fst st'), snd st') /\ exists s, f' = set v f s /\ text s (snd (fst st')) /\ (nonzero bs -> nonzero (snd (fst st'))))).
    - intros st [[mi b] e'] c2 f2 (-> & s & -> & T2 & Z2). cbn [fst snd] in *. io1 u c3. io1 u4 c4. io1 col c5. cbv zeta. io1 tab c6.
      destruct tab; [apply sim_err|]. io1 br c7. destruct (negb br).
      + leave. cbn [fst snd]. split; [reflexivity|]. exists s. auto.
      + io1 u8 c8. eapply sim_bind; [apply sim_read_line; [exact J|rewrite get_set; exact T2]|]. cbn beta. intros _ b9 c9 f9 (s9 & -> & T9 & Z9). rewrite set_set.
        io1 e9 c10. goon. cbn [fst snd]. split; [reflexivity|]. exists s9. auto.
    - cbn [fst snd]. split; [reflexivity|]. exists (get v f). rewrite set_get. auto. }
  cbn beta. intros st [[mi b] e'] c2 f2 (-> & s & -> & T2 & Z2). cbn [fst snd] in *.
  apply (sim_ret env _ _ c2 _ (fun r (r' : Z * list N * mark) f' _ => r = (fst (fst r'), snd r') /\ exists s, f' = set v f s /\ text s (snd (fst r')) /\ (nonzero bs -> nonzero (snd (fst r'))))).
  intros _. cbn [fst snd]. split; [reflexivity|]. exists s. auto.
Qed.

Ltac here := repeat match goal with x := mkEnv _ _ |- _ => unfold x end; cbn [e_slots In]; tauto.
Ltac frames := cbn [set get f_0 f_1 f_2 f_3 null_frame] in *.
Lemma run_block_scalar env pindent literal c f :
  sim token_blocks env (x_block_scalar pindent literal) c f (scan_block_scalar pindent literal c) (fun t b f' h => f' = f /\ token_is h t b).
Proof.
  apply (sim_scope token_blocks env _ _ c f _ (fun t b h => token_is h t b)); [exact covers_012|].
  set (env0 := mkEnv (e_blocks env ++ frame_blocks f) [V0; V1; V2]).
  eapply sim_then; [apply sim_init; [here|reflexivity]|]. cbn beta. intros _ f1 (s0 & -> & T0 & _).
  eapply sim_then; [apply sim_init; [here|reflexivity]|]. cbn beta. intros _ f1 (s1 & -> & T1 & _).
  eapply sim_then; [apply sim_init; [here|reflexivity]|]. cbn beta. intros _ f1 (s2 & -> & T2 & _). frames.
  unfold scan_block_scalar. io1 start c1. io1 u c2. io1 hdr c3. destruct hdr as [chomping increment]. io1 u4 c4. cbv zeta.
  eapply sim_bind; [apply run_block_scalar_breaks; [here|exact T2]|]. cbn beta. intros r [[indent b5] e5] c5 f5 (-> & s5 & -> & T5 & Z5). frames. cbn [fst snd] in *.
  specialize (Z5 (Forall_nil _)). io1 u6 c6.
  eapply sim_bind.
  { apply (sim_loop env0 (fun (st : bool * mark) (st' : list N * list N * list N * bool * mark) f' => let '(s, leading, trailing, lb, e) := st' in
       st = (lb, e) /\ exists t0 t1 t2, f' = mkFrame t0 t1 t2 null_str /\ text t0 s /\ text t1 leading /\ text t2 trailing /\ nonzero trailing)
      (fun (e : mark) (st' : list N * list N * list N * bool * mark) f' => let '(s, leading, trailing, lb, e') := st' in
       e = e' /\ exists t0 t1 t2, f' = mkFrame t0 t1 t2 null_str /\ text t0 s /\ text t1 leading /\ text t2 trailing)).
    - intros st [[[[s leading] trailing] lb] e] c7 f7 (-> & t0 & t1 & t2 & -> & A0 & A1 & A2 & AZ).
      io1 col c8. io1 more c9. destruct (negb more); [leave; split; [reflexivity|exists t0, t1, t2; auto]|].
      io1 tb c10. eapply sim_then; [apply sim_at; [exact A1|left; lia]|]. cbn beta. intros lf f11 (-> & ->). rewrite starts_lf_at.
      eapply (sim_bind _ env0 _ _ _ _ c10 _ (fun _ s' f' => exists t0 t1, f' = mkFrame t0 t1 t2 null_str /\ text t0 s' /\ text t1 [])).
      + destruct (negb literal && (nth 0 leading 0 =? 0xA) && negb lb && negb tb).
        * eapply sim_then; [apply sim_at; [exact A2|left; lia]|]. cbn beta. intros t f12 (-> & ->). rewrite (empty_at trailing AZ).
          rewrite (bind_ret _ c10).
          eapply (sim_bind _ env0 _ _ _ _ c10 _ (fun _ s' f' => exists t0, f' = mkFrame t0 t1 t2 null_str /\ text t0 s')).
          { destruct (nonempty trailing); cbn [negb].
            - apply sim_done. exists t0. auto.
            - eapply sim_weaken; [apply sim_extend_put; [here|exact A0|cbn [length]; lia]|]. cbn beta. intros _ b f' _ (s' & -> & T'). exists s'. auto. }
          cbn beta. intros _ s' c11 f11 (t0' & -> & T0').
          eapply sim_gives; [eapply sim_clear; [here|exact A1]|]. cbn beta. intros _ f' (t1' & -> & T1'). exists t0', t1'. auto.
        * eapply sim_then; [apply sim_join; [here|here|discriminate|exact A0|exact A1]|]. cbn beta. intros _ f' (t0' & t1' & -> & T0' & T1'). frames.
          eapply sim_gives; [eapply sim_clear; [here|exact T1']|]. cbn beta. intros _ f' (t1'' & -> & T1''). exists t0', t1''. auto.
      + cbn beta. intros _ s' c11 f11 (t0' & t1' & -> & T0' & T1'). cbv zeta.
        eapply sim_then; [apply sim_join; [here|here|discriminate|exact T0'|exact A2]|]. cbn beta. intros _ f' (t0'' & t2' & -> & T0'' & T2'). frames.
        eapply sim_then; [eapply sim_clear; [here|exact T2']|]. cbn beta. intros _ f' (t2'' & -> & T2''). frames.
        io1 lb2 c12. eapply sim_bind; [apply sim_read_while; [here|exact T0'']|]. cbn beta. intros _ b13 c13 f13 (s13 & more13 & -> & T13 & _ & _). frames.
        io1 u14 c14. eapply sim_bind; [apply sim_read_line; [here|exact T1']|]. cbn beta. intros _ b15 c15 f15 (s15 & -> & T15 & _). frames.
        eapply sim_bind; [apply run_block_scalar_breaks; [here|exact T2'']|]. cbn beta. intros r [[i16 b16] e16] c16 f16 (-> & s16 & -> & T16 & Z16). frames. cbn [fst snd] in *.
        goon. split; [reflexivity|]. exists s13, s15, s16. split; [reflexivity|]. split; [exact T13|]. split; [exact T15|]. split; [exact T16|]. apply Z16, Forall_nil.
    - split; [reflexivity|]. exists s0, s1, s5. auto. }
  cbn beta. intros e [[[[s leading] trailing] lb] e'] c7 f7 (-> & t0 & t1 & t2 & -> & A0 & A1 & A2). cbv zeta.
  eapply (sim_then _ env0 _ _ c7 _ _ (fun _ _ f' => exists t0 t1, f' = mkFrame t0 t1 t2 null_str /\ text t0 (match chomping with Some false => s | _ => s ++ leading end) /\ t_at t1 <> None)).
  { assert (W : sim0 env0 (x_join V0 V1) c7 (mkFrame t0 t1 t2 null_str) (COk tt c7) (fun _ _ f' => exists t0 t1, f' = mkFrame t0 t1 t2 null_str /\ text t0 (s ++ leading) /\ t_at t1 <> None)).
    { eapply sim_weaken; [apply sim_join; [here|here|discriminate|exact A0|exact A1]|]. cbn beta. intros _ _ f' _ (t0' & t1' & -> & T0' & T1'). exists t0', t1'.
      split; [reflexivity|]. split; [exact T0'|apply T1']. }
    destruct chomping as [[|]|]; [exact W| |exact W]. apply sim_done. exists t0, t1. split; [reflexivity|]. split; [exact A0|apply A1]. }
  cbn beta. intros _ f8 (u0 & u1 & -> & U0 & U1). set (s8 := match chomping with Some false => s | _ => s ++ leading end) in *.
  eapply (sim_then _ env0 _ _ c7 _ _ (fun _ _ f' => exists t0 t2, f' = mkFrame t0 u1 t2 null_str /\ text t0 (match chomping with Some true => s8 ++ trailing | _ => s8 end))).
  { assert (W : sim0 env0 (x_join V0 V2) c7 (mkFrame u0 u1 t2 null_str) (COk tt c7) (fun _ _ f' => exists t0 t2, f' = mkFrame t0 u1 t2 null_str /\ text t0 (s8 ++ trailing))).
    { eapply sim_weaken; [apply sim_join; [here|here|discriminate|exact U0|exact A2]|]. cbn beta. intros _ _ f' _ (t0' & t1' & -> & T0' & T1'). exists t0', t1'. auto. }
    destruct chomping as [[|]|]; [exact W| |]; apply sim_done; exists u0, t2; auto. }
  cbn beta. intros _ f9 (v0 & v2 & -> & W0).
  eapply sim_then; [apply sim_del; here|]. cbn beta. intros _ f10 ->.
  eapply sim_then; [apply sim_del; here|]. cbn beta. intros _ f10 ->. frames.
  apply sim_seal; [here|apply W0|reflexivity|]. intros p h Np E. cbn [get f_0] in E. split; [reflexivity|]. rewrite (proj1 (proj2 W0)) in E.
  unfold token_is, token_at. cbn [ht_tok ht_start ht_end ht_deep tok_at sound_tok]. rewrite E. auto.
Qed.

Lemma sim_put_pure env v c f bs ds : In v (e_slots env) -> text (get v f) bs -> (length bs + 5 < t_size (get v f))%nat ->
  sim0 env (x_put v ds) c f (put bs ds c) (fun _ b f' => exists s, f' = set v f s /\ text s b).
Proof.
  intros J T L. destruct (length ds <=? 5)%nat eqn:E.
  - apply Nat.leb_le in E. rewrite put_ok by exact E. eapply sim_gives; [apply sim_put; [exact J|exact T|lia]|]. cbn beta. intros _ f' (s & -> & T' & _). exists s. auto.
  - unfold put, room. rewrite E. apply sim_bad.
Qed.
Lemma run_escape env start c f bs : In V0 (e_slots env) -> text (get V0 f) bs ->
  sim0 env (x_escape start) c f (scan_escape start bs c) (fun _ b f' => exists s, f' = set V0 f s /\ text s b).
Proof.
  intros J T. unfold x_escape. eapply sim_then; [apply sim_extend; [exact J|exact T]|]. cbn beta. intros _ f1 (s1 & -> & T1 & L1).
  unfold scan_escape. io1 x c1. destruct (escape x) as [[ds|n]|]; [| |apply sim_err].
  - eapply sim_bind; [apply sim_put_pure; rewrite ?get_set; [exact J|exact T1|exact L1]|]. cbn beta. intros _ b c2 f2 (s2 & -> & T2). rewrite set_set. io1 u c3.
    apply (sim_map env (io skip) skip (fun _ => b) c3 _ _ _ (sim_io env skip c3 _)). intros _ _ f' (_ & ->). exists s2. auto.
  - io1 u2 c2. io1 u3 c3. io1 u4 c4. io1 val c5. destruct (_ || _); [apply sim_err|].
    eapply sim_bind; [apply sim_put_pure; rewrite ?get_set; [exact J|exact T1|exact L1]|]. cbn beta. intros _ b c6 f6 (s6 & -> & T6). rewrite set_set.
    apply (sim_map env (io (skip_n n)) (skip_n n) (fun _ => b) c6 _ _ _ (sim_io env (skip_n n) c6 _)). intros _ _ f' (_ & ->). exists s6. auto.
Qed.

Lemma run_quoted_word env single start c f bs : In V0 (e_slots env) -> text (get V0 f) bs ->
  sim0 env (x_quoted_word single start) c f (scan_quoted_word single start bs c)
    (fun lb r f' => lb = snd r /\ exists s, f' = set V0 f s /\ text s (fst r)).
Proof.
  intros J T. unfold x_quoted_word, scan_quoted_word. cbv zeta.
  apply (sim_loop env (fun (_ : unit) b f' => exists s, f' = set V0 f s /\ text s b)
           (fun (lb : bool) (r : list N * bool) f' => lb = snd r /\ exists s, f' = set V0 f s /\ text s (fst r))).
  - intros _ b c1 f1 (s & -> & T1). io1 z c2. destruct z; [leave; split; [reflexivity|exists s; auto]|].
    io1 pr c3. destruct pr.
    + eapply sim_then; [apply sim_extend; [exact J|rewrite get_set; exact T1]|]. cbn beta. intros _ f4 (s4 & -> & T4 & L4). rewrite set_set.
      eapply sim_bind; [apply sim_put_pure; rewrite ?get_set; [exact J|exact T4|exact L4]|]. cbn beta. intros _ b5 c5 f5 (s5 & -> & T5). rewrite set_set.
      io1 u6 c6. io1 u7 c7. io1 u8 c8. goon. exists s5. auto.
    + io1 q c4. destruct q; [leave; split; [reflexivity|exists s; auto]|]. io1 eb c5. destruct eb.
      * io1 u6 c6. io1 u7 c7. io1 u8 c8. leave. split; [reflexivity|exists s; auto].
      * io1 es c6. destruct es.
        { eapply sim_bind; [apply run_escape; [exact J|rewrite get_set; exact T1]|]. cbn beta. intros _ b7 c7 f7 (s7 & -> & T7). rewrite set_set.
          io1 u8 c8. goon. exists s7. auto. }
        { eapply sim_bind; [apply sim_read; [exact J|rewrite get_set; exact T1]|]. cbn beta. intros _ b7 c7 f7 (s7 & -> & T7 & _). rewrite set_set.
          io1 u8 c8. goon. exists s7. auto. }
  - exists (get V0 f). rewrite set_get. auto.
Qed.

(* the strings of a scalar *)
Definition parts (t0 : hstr) (b : blanks) (f : frame) : Prop := let '(lb, ws, leading, trailing) := b in
  exists t1 t2 t3, f = mkFrame t0 t1 t2 t3 /\ text t1 leading /\ text t2 trailing /\ text t3 ws /\ nonzero trailing /\
  (if lb then ws = [] else leading = [] /\ trailing = []).
Definition lb_of (b : blanks) : bool := fst (fst (fst b)).
Definition four := [V0; V1; V2; V3].
Lemma run_blank env t0 b c f : e_slots env = four -> parts t0 b f ->
  sim0 env ((if lb_of b then io skip else x_read V3) ;! io (cache 1) ;! xret (@inl bool bool (lb_of b))) c f
    ((let '(lb, ws, leading, trailing) := b in
      if lb then bind skip (fun _ => bind (cache 1) (fun _ => ret (@inl blanks blanks b)))
      else bind (read ws) (fun ws => bind (cache 1) (fun _ => ret (inl (lb, ws, leading, trailing))))) c)
    (fun r r' f' => match r, r' with inl x, inl x' => x = lb_of x' /\ parts t0 x' f' | inr x, inr x' => x = lb_of x' /\ parts t0 x' f' | _, _ => False end).
Proof.
  intros J P. destruct b as [[[lb ws] leading] trailing]. unfold lb_of. cbn [fst snd]. pose proof P as (t1 & t2 & t3 & -> & A1 & A2 & A3 & AZ & AC). destruct lb.
  - io1 u c1. io1 u2 c2. goon. split; [reflexivity|exact P].
  - eapply sim_bind; [apply sim_read; [rewrite J; unfold four; here|exact A3]|]. cbn beta. intros _ b c1 f1 (s & -> & T & _). io1 u2 c2. goon.
    split; [reflexivity|]. exists t1, t2, s. auto 10.
Qed.
Lemma run_break env t0 b c f : e_slots env = four -> parts t0 b f ->
  sim0 env ((if lb_of b then x_read_line V2 else x_clear V3 ;! x_read_line V1) ;! io (cache 1) ;! xret (@inl bool bool true)) c f
    ((let '(lb, ws, leading, trailing) := b in
      if lb then bind (read_line trailing) (fun trailing => bind (cache 1) (fun _ => ret (@inl blanks blanks (lb, ws, leading, trailing))))
      else bind (read_line leading) (fun leading => bind (cache 1) (fun _ => ret (inl (true, [], leading, trailing))))) c)
    (fun r r' f' => match r, r' with inl x, inl x' => x = lb_of x' /\ parts t0 x' f' | inr x, inr x' => x = lb_of x' /\ parts t0 x' f' | _, _ => False end).
Proof.
  intros J P. destruct b as [[[lb ws] leading] trailing]. unfold lb_of. cbn [fst snd]. pose proof P as (t1 & t2 & t3 & -> & A1 & A2 & A3 & AZ & AC). destruct lb.
  - eapply sim_bind; [apply sim_read_line; [rewrite J; unfold four; here|exact A2]|]. cbn beta. intros _ b c1 f1 (s & -> & T & Z). io1 u2 c2. goon.
    split; [reflexivity|]. exists t1, s, t3. auto 10.
  - eapply (sim_bind _ env _ _ (read_line leading) _ c _ (fun _ b f' => exists t1 t3, f' = mkFrame t0 t1 t2 t3 /\ text t1 b /\ text t3 [])).
    + eapply sim_then; [eapply sim_clear; [rewrite J; unfold four; here|exact A3]|]. cbn beta. intros _ f1 (s & -> & T). frames.
      eapply sim_weaken; [apply sim_read_line; [rewrite J; unfold four; here|exact A1]|]. cbn beta. intros _ b f2 _ (s2 & -> & T2 & _). exists s2, s. auto.
    + cbn beta. intros _ b c1 f1 (s1 & s3 & -> & T1 & T3). io1 u2 c2. goon. split; [reflexivity|]. exists s1, t2, s3. auto 10.
Qed.
Lemma sim_column env c f : sim0 env (io column) c f (COk tt c) (fun a _ f' => a = m_column (c_mark c) /\ f' = f).
Proof.
  intros h G H S _ _. unfold io, column. split; [exact G|]. split; [apply ext_refl|]. split; [apply changes_refl|]. split; [exact S|].
  split; [apply keeps_refl|]. exists tt. auto.
Qed.
Lemma run_quoted_blanks env t0 b c f : e_slots env = four -> parts t0 b f ->
  sim0 env (x_blanks None (lb_of b)) c f (scan_quoted_blanks b c) (fun r r' f' => r = lb_of r' /\ parts t0 r' f').
Proof.
  intros J P0. unfold x_blanks, scan_quoted_blanks.
  apply (sim_loop env (fun (r : bool) r' f' => r = lb_of r' /\ parts t0 r' f') (fun r r' f' => r = lb_of r' /\ parts t0 r' f')); [|auto].
  clear P0 b c f. intros a [[[lb ws] leading] trailing] c f (-> & P).
  io1 x c1. destruct (is_blank x); [|destruct (is_break x)].
  - eapply sim_then; [apply sim_column|]. cbn beta. intros col f1 (_ & ->).
    eapply (sim_then _ env (xret tt) _ c1 f _ (fun _ _ f' => f' = f)); [apply sim_done; reflexivity|]. intros _ f1 ->.
    exact (run_blank env t0 (lb, ws, leading, trailing) c1 f J P).
  - io1 u c2. exact (run_break env t0 (lb, ws, leading, trailing) c2 f J P).
  - leave. auto.
Qed.
Lemma run_plain_blanks env indent start t0 b c f : e_slots env = four -> parts t0 b f ->
  sim0 env (x_blanks (Some (indent, start)) (lb_of b)) c f (scan_plain_blanks indent start b c) (fun r r' f' => r = lb_of r' /\ parts t0 r' f').
Proof.
  intros J P0. unfold x_blanks, scan_plain_blanks.
  apply (sim_loop env (fun (r : bool) r' f' => r = lb_of r' /\ parts t0 r' f') (fun r r' f' => r = lb_of r' /\ parts t0 r' f')); [|auto].
  clear P0 b c f. intros a [[[lb ws] leading] trailing] c f (-> & P).
  io1 x c1. destruct (is_blank x); [|destruct (is_break x)].
  - io1 col c2. unfold lb_of at 1. cbn [fst snd]. destruct (lb && (Z.of_N col <? indent)%Z && is_tab x).
    + intros h G H S _ _. unfold xbind, x_err, io, err. split; [exact G|]. split; [apply ext_refl|]. split; [apply changes_refl|].
      split; [apply keeps_refl|reflexivity].
    + eapply (sim_then _ env (xret tt) _ c2 f _ (fun _ _ f' => f' = f)); [apply sim_done; reflexivity|]. intros _ f1 ->.
      exact (run_blank env t0 (lb, ws, leading, trailing) c2 f J P).
  - io1 u c2. exact (run_break env t0 (lb, ws, leading, trailing) c2 f J P).
  - leave. auto.
Qed.

Lemma run_fold env c t0 t1 t2 t3 s leading trailing : e_slots env = four ->
  text t0 s -> text t1 leading -> text t2 trailing -> nonzero trailing ->
  sim0 env x_fold c (mkFrame t0 t1 t2 t3) (fold_breaks s leading trailing c)
    (fun _ s' f' => exists t0 t1 t2, f' = mkFrame t0 t1 t2 t3 /\ text t0 s' /\ text t1 [] /\ text t2 []).
Proof.
  intros J A0 A1 A2 AZ. unfold x_fold, fold_breaks.
  assert (I0 : forall v, In v (e_slots env)) by (intros v; rewrite J; destruct v; cbn [four In]; tauto).
  eapply sim_then; [apply sim_at; [exact A1|left; lia]|]. cbn beta. intros a f1 (-> & ->). rewrite starts_lf_at. destruct (nth 0 leading 0 =? 0xA).
  - eapply sim_then; [apply sim_at; [exact A2|left; lia]|]. cbn beta. intros a f1 (-> & ->). rewrite (empty_at _ AZ).
    destruct trailing as [|x r]; cbn [nonempty negb].
    + rewrite (bind_ret _ c). eapply sim_bind; [apply sim_extend_put; [apply I0|exact A0|cbn [length]; lia]|]. cbn beta. intros _ b c1 f1 (s1 & -> & T1). frames.
      eapply sim_gives; [eapply sim_clear; [apply I0|exact A1]|]. cbn beta. intros _ f2 (s2 & -> & T2). exists s1, s2, t2. auto.
    + eapply (sim_then _ env _ _ c _ _ (fun _ _ f' => exists u0 u2, f' = mkFrame u0 t1 u2 t3 /\ text u0 (s ++ x :: r) /\ text u2 [])).
      * eapply sim_then; [apply sim_join; [apply I0|apply I0|discriminate|exact A0|exact A2]|]. cbn beta. intros _ f1 (u0 & u2 & -> & U0 & U2). frames.
        eapply sim_weaken; [eapply sim_clear; [apply I0|exact U2]|]. cbn beta. intros _ _ f2 _ (s2 & -> & T2). exists u0, s2. auto.
      * cbn beta. intros _ f1 (u0 & u2 & -> & U0 & U2).
        eapply sim_gives; [eapply sim_clear; [apply I0|exact A1]|]. cbn beta. intros _ f2 (s2 & -> & T2). exists u0, s2, u2. auto.
  - eapply sim_then; [apply sim_join; [apply I0|apply I0|discriminate|exact A0|exact A1]|]. cbn beta. intros _ f1 (u0 & u1 & -> & U0 & U1). frames.
    eapply sim_then; [apply sim_join; [apply I0|apply I0|discriminate|exact U0|exact A2]|]. cbn beta. intros _ f1 (w0 & w2 & -> & W0 & W2). frames.
    eapply sim_then; [eapply sim_clear; [apply I0|exact U1]|]. cbn beta. intros _ f2 (s2 & -> & T2). frames.
    eapply sim_gives; [eapply sim_clear; [apply I0|exact W2]|]. cbn beta. intros _ f3 (s3 & -> & T3). exists w0, s2, s3.
    rewrite app_assoc. auto.
Qed.

(* four strings *)
Lemma run_inits {A B} own env (k : xm A) c (v : cres B) Q : e_slots env = four ->
  (forall s0 s1 s2 s3, text s0 [] -> text s1 [] -> text s2 [] -> text s3 [] -> sim own env k c (mkFrame s0 s1 s2 s3) v Q) ->
  sim own env (x_init V0 ;! x_init V1 ;! x_init V2 ;! x_init V3 ;! k) c null_frame v Q.
Proof.
  intros J K. assert (I0 : forall v, In v (e_slots env)) by (intros x; rewrite J; destruct x; cbn [four In]; tauto).
  eapply sim_then; [apply sim_init; [apply I0|reflexivity]|]. cbn beta. intros _ f1 (s0 & -> & T0 & _).
  eapply sim_then; [apply sim_init; [apply I0|reflexivity]|]. cbn beta. intros _ f1 (s1 & -> & T1 & _).
  eapply sim_then; [apply sim_init; [apply I0|reflexivity]|]. cbn beta. intros _ f1 (s2 & -> & T2 & _).
  eapply sim_then; [apply sim_init; [apply I0|reflexivity]|]. cbn beta. intros _ f1 (s3 & -> & T3 & _). frames. apply K; assumption.
Qed.
Lemma run_end {A B} own env (mk : ptr -> A) c s0 s1 s2 s3 bs (b : B) (Q : A -> B -> heap -> Prop) : e_slots env = four -> text s0 bs ->
  (forall p, own (mk p) = ptr_blocks p) -> (forall p h, p <> None -> str_at h p = bs -> Q (mk p) b h) ->
  sim own env (x_del V1 ;! x_del V2 ;! x_del V3 ;! xbind (x_seal V0 whole) (fun p => xret (mk p))) c (mkFrame s0 s1 s2 s3) (COk b c)
    (fun a b f' h => frame_blocks f' = [] /\ Q a b h).
Proof.
  intros J T O K. assert (I0 : forall v, In v (e_slots env)) by (intros x; rewrite J; destruct x; cbn [four In]; tauto).
  eapply sim_then; [apply sim_del; apply I0|]. cbn beta. intros _ f10 ->.
  eapply sim_then; [apply sim_del; apply I0|]. cbn beta. intros _ f10 ->.
  eapply sim_then; [apply sim_del; apply I0|]. cbn beta. intros _ f10 ->. frames.
  apply sim_seal; [apply I0|apply T|exact O|]. intros p h Np E. cbn [get f_0] in E. split; [reflexivity|]. rewrite (proj1 (proj2 T)) in E. apply K; assumption.
Qed.

Lemma run_between env c t0 t1 t2 t3 s (lb : bool) (ws leading trailing : list N) : e_slots env = four ->
  text t0 s -> text t1 leading -> text t2 trailing -> text t3 ws -> nonzero trailing -> (if lb then ws = [] else leading = [] /\ trailing = []) ->
  sim0 env (if lb then x_fold else x_join V0 V3 ;! x_clear V3) c (mkFrame t0 t1 t2 t3)
    ((if lb then fold_breaks s leading trailing else ret (s ++ ws)) c)
    (fun _ s f' => exists t0 t1 t2 t3, f' = mkFrame t0 t1 t2 t3 /\ text t0 s /\ text t1 [] /\ text t2 [] /\ text t3 []).
Proof.
  intros J A0 A1 A2 A3 AZ AC.
  assert (I0 : forall v, In v (e_slots env)) by (intros v; rewrite J; destruct v; cbn [four In]; tauto). destruct lb.
  - subst ws. eapply sim_weaken; [apply run_fold; eassumption|]. cbn beta. intros _ s' f' _ (u0 & u1 & u2 & -> & U0 & U1 & U2). exists u0, u1, u2, t3. auto 10.
  - destruct AC as [-> ->]. eapply sim_then; [apply sim_join; [apply I0|apply I0|discriminate|exact A0|exact A3]|]. cbn beta. intros _ f1 (u0 & u3 & -> & U0 & U3). frames.
    eapply sim_gives; [eapply sim_clear; [apply I0|exact U3]|]. cbn beta. intros _ f2 (w3 & -> & W3). exists u0, t1, t2, w3. auto 10.
Qed.
Lemma run_flow_scalar env single c f :
  sim token_blocks env (x_flow_scalar single) c f (scan_flow_scalar single c) (fun t b f' h => f' = f /\ token_is h t b).
Proof.
  apply (sim_scope token_blocks env _ _ c f _ (fun t b h => token_is h t b)); [exact covers_0123|].
  set (env0 := mkEnv (e_blocks env ++ frame_blocks f) [V0; V1; V2; V3]). assert (J : e_slots env0 = four) by reflexivity.
  assert (I0 : forall v, In v (e_slots env0)) by (intros x; rewrite J; destruct x; cbn [four In]; tauto). clearbody env0.
  apply run_inits; [exact J|]. intros s0 s1 s2 s3 T0 T1 T2 T3. unfold scan_flow_scalar. io1 start c1. cbv zeta. io1 u c2.
  eapply (sim_bind _ env0 _ _ _ _ c2 _ (fun _ s f' => exists t0 t1 t2 t3, f' = mkFrame t0 t1 t2 t3 /\ text t0 s)).
  { apply (sim_loop env0 (fun (_ : unit) s f' => exists t0 t1 t2 t3, f' = mkFrame t0 t1 t2 t3 /\ text t0 s /\ text t1 [] /\ text t2 [] /\ text t3 [])
       (fun (_ : unit) s f' => exists t0 t1 t2 t3, f' = mkFrame t0 t1 t2 t3 /\ text t0 s)); [|exists s0, s1, s2, s3; auto].
    intros _ s c3 f3 (t0 & t1 & t2 & t3 & -> & A0 & A1 & A2 & A3). io1 u4 c4. io1 ind c5. destruct ind; [apply sim_err|]. io1 z c6. destruct z; [apply sim_err|].
    io1 u7 c7. eapply sim_bind; [apply run_quoted_word; [apply I0|exact A0]|]. cbn beta. intros lb [s8 lb'] c8 f8 (-> & t8 & -> & T8). cbn [fst snd] in *. frames.
    io1 u9 c9. io1 q c10. destruct q; [leave; exists t8, t1, t2, t3; auto|]. io1 u11 c11.
    eapply sim_bind; [apply (run_quoted_blanks env0 t8 (lb', [], [], [])); [exact J|exists t1, t2, t3; split; [reflexivity|]; split; [exact A1|]; split; [exact A2|]; split; [exact A3|]; split; [apply Forall_nil|destruct lb'; auto]]|].
    cbn beta. intros lb12 [[[lb2 ws] leading] trailing] c12 f12 (-> & (u1 & u2 & u3 & -> & B1 & B2 & B3 & BZ & BC)). unfold lb_of. cbn [fst snd].
    eapply (sim_bind _ env0 _ _ _ _ c12 _ (fun _ s f' => exists t0 t1 t2 t3, f' = mkFrame t0 t1 t2 t3 /\ text t0 s /\ text t1 [] /\ text t2 [] /\ text t3 [])).
    - apply run_between; assumption.
    - cbn beta. intros _ s13 c13 f13 F. goon. exact F. }
  cbn beta. intros _ s c3 f3 (t0 & t1 & t2 & t3 & -> & A0). io1 u4 c4. io1 e c5.
  apply (run_end token_blocks env0 _ c5 t0 t1 t2 t3 s _ (fun t b h => token_is h t b)); [exact J|exact A0|reflexivity|].
  intros p h Np E. unfold token_is, token_at. cbn [ht_tok ht_start ht_end ht_deep tok_at sound_tok]. rewrite E. auto.
Qed.

Definition plain_parts (st : bool * mark) (st' : plain_state) (f : frame) : Prop :=
  let '(s, b, e) := st' in st = (lb_of b, e) /\ exists t0, text t0 s /\ parts t0 b f.
Lemma run_plain_word env flow start st st' c f : e_slots env = four -> plain_parts st st' f ->
  sim0 env (x_plain_word flow start st) c f (scan_plain_word flow start st' c) plain_parts.
Proof.
  intros J P. assert (I0 : forall v, In v (e_slots env)) by (intros v; rewrite J; destruct v; cbn [four In]; tauto).
  unfold x_plain_word, scan_plain_word. apply (sim_loop env plain_parts plain_parts); [|exact P]. clear st st' c f P.
  intros st [[s [[[lb ws] leading] trailing]] e] c f P. pose proof P as (-> & t0 & A0 & t1 & t2 & t3 & -> & A1 & A2 & A3 & AZ & AC).
  unfold lb_of. cbn [fst snd].
  io1 z c1. destruct z; [leave; exact P|]. io1 colon c2. destruct colon; [apply sim_err|]. io1 stop c3. destruct stop; [leave; exact P|].
  eapply sim_then; [apply sim_empty; exact A3|]. cbn beta. intros w f1 (-> & ->).
  eapply (sim_bind _ env _ _ _ _ c3 _ (fun _ s f' => exists t0 t1 t2 t3, f' = mkFrame t0 t1 t2 t3 /\ text t0 s /\ text t1 [] /\ text t2 [] /\ text t3 [])).
  - match goal with |- context [lb || ?w] => destruct (lb || w) eqn:W end.
    { apply run_between; assumption. }
    apply orb_false_iff in W. destruct W as [-> W]. destruct ws; [|discriminate W]. destruct AC as [-> ->]. rewrite app_nil_r.
    apply sim_done. exists t0, t1, t2, t3. auto 10.
  - cbn beta. intros _ s4 c4 f4 (u0 & u1 & u2 & u3 & -> & U0 & U1 & U2 & U3).
    eapply sim_bind; [apply sim_read; [apply I0|exact U0]|]. cbn beta. intros _ s5 c5 f5 (u5 & -> & U5 & _). frames.
    io1 e6 c6. io1 u7 c7. goon. replace (if lb then ws else []) with (@nil N) by (destruct lb; [symmetry; exact AC|reflexivity]). split; [reflexivity|]. exists u5. split; [exact U5|]. exists u1, u2, u3. split; [reflexivity|].
    split; [exact U1|]. split; [exact U2|]. split; [exact U3|]. split; [apply Forall_nil|auto].
Qed.

Lemma run_plain_scalar env flow indent c f :
  sim (fun r => token_blocks (fst r)) env (x_plain_scalar flow indent) c f (scan_plain_scalar flow indent c)
    (fun r r' f' h => f' = f /\ token_is h (fst r) (fst r') /\ snd r = snd r').
Proof.
  apply (sim_scope (fun r => token_blocks (fst r)) env _ _ c f _ (fun r r' h => token_is h (fst r) (fst r') /\ snd r = snd r')); [exact covers_0123|].
  set (env0 := mkEnv (e_blocks env ++ frame_blocks f) [V0; V1; V2; V3]). assert (J : e_slots env0 = four) by reflexivity.
  assert (I0 : forall v, In v (e_slots env0)) by (intros x; rewrite J; destruct x; cbn [four In]; tauto). clearbody env0. cbv zeta.
  apply run_inits; [exact J|]. intros s0 s1 s2 s3 T0 T1 T2 T3. unfold scan_plain_scalar. cbv zeta. io1 start c1.
  eapply (sim_bind _ env0 _ _ _ _ c1 _ plain_parts).
  { apply (sim_loop env0 plain_parts plain_parts).
    - intros st st' c2 f2 P. io1 u3 c3. io1 ind c4. destruct ind; [leave; exact P|]. io1 hash c5. destruct hash; [leave; exact P|].
      eapply sim_bind; [apply run_plain_word; [exact J|exact P]|]. cbn beta. clear st st' P. intros st st' c6 f6 P.
      io1 more c7. destruct (negb more); [leave; exact P|]. io1 u8 c8. destruct st' as [[s b] e]. destruct P as (-> & t0 & A0 & P).
      eapply sim_bind; [apply run_plain_blanks; [exact J|exact P]|]. cbn beta. intros lb9 b9 c9 f9 (-> & P9). io1 col c10.
      destruct (_ && _); [leave|goon]; (split; [reflexivity|exists t0; auto]).
    - split; [reflexivity|]. exists s0. split; [exact T0|]. exists s1, s2, s3. repeat (split; [first [reflexivity|assumption|apply Forall_nil]|]). auto. }
  cbn beta. intros st [[s b] e] c2 f2 (-> & t0 & A0 & P). destruct b as [[[lb ws] leading] trailing]. destruct P as (t1 & t2 & t3 & -> & _).
  unfold lb_of. cbn [fst snd].
  apply (run_end (fun r => token_blocks (fst r)) env0 (fun p => (mkHtoken (HTScalar p Plain) start e false, lb)) c2 t0 t1 t2 t3 s _ (fun r r' h => token_is h (fst r) (fst r') /\ snd r = snd r'));
    [exact J|exact A0|reflexivity|].
  intros p h Np E. unfold token_is, token_at. cbn [fst snd ht_tok ht_start ht_end ht_deep tok_at sound_tok]. rewrite E. auto.
Qed.
