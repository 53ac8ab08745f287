(* From the invariant to the properties of the token stream. *)
From Verif Require Import Base ReaderModel Utf8Spec CharSpec CharModel Types CursorModel ScanModel ScannerModel CursorProofs ScanProofs ScanQuoted ScannerSpec ScannerInv ScannerFetch ScannerBranch ScannerBlock ScannerLoop.

(* --- positions --- *)
Lemma skipn_cons {A} (d : A) l i x r : skipn i l = x :: r -> nth i l d = x /\ skipn (S i) l = r /\ (i < length l)%nat.
Proof.
  revert i. induction l as [|y l IH]; intros i H; [rewrite skipn_nil in H; discriminate|].
  destruct i as [|i]; cbn in *; [injection H as -> ->; repeat split; lia|]. destruct (IH i H) as (H1 & H2 & H3). repeat split; auto. lia.
Qed.
Lemma nth_skipn {A} (d : A) l i : nth 0 (skipn i l) d = nth i l d.
Proof. revert i. induction l as [|y l IH]; intros i; destruct i; cbn; auto. Qed.
Lemma adv_position T t m t' m' : adv t m t' m' -> forall i, (i <= length T)%nat -> t = skipn i T -> m = position T i ->
  exists j, (j <= length T)%nat /\ t' = skipn j T /\ m' = position T j.
Proof.
  induction 1 as [t m|x t m t' m' B A IH|t m t' m' A IH|x t m t' m' B N A IH]; intros i Hi Ht Hm.
  - exists i. auto.
  - symmetry in Ht. destruct (skipn_cons 0 _ _ _ _ Ht) as (E1 & E2 & E3).
    apply (IH (S i)); auto. cbn [position]. unfold ends_line. rewrite E1, B. cbn [andb]. rewrite Hm. reflexivity.
  - symmetry in Ht. destruct (skipn_cons 0 _ _ _ _ Ht) as (E1 & E2 & E3). destruct (skipn_cons 0 _ _ _ _ E2) as (E4 & E5 & E6).
    assert (L1 : ends_line T i = false) by (unfold ends_line; rewrite E1, E4; reflexivity).
    assert (L2 : ends_line T (S i) = true) by (unfold ends_line; rewrite E4; reflexivity).
    apply (IH (S (S i))); auto. cbn [position]. rewrite L1, L2, <- Hm. unfold next_line. cbn. f_equal. lia.
  - symmetry in Ht. destruct (skipn_cons 0 _ _ _ _ Ht) as (E1 & E2 & E3).
    apply (IH (S i)); auto. cbn [position]. unfold ends_line. rewrite E1, B. rewrite <- E2, nth_skipn in N. rewrite N. cbn [andb negb].
    rewrite Hm. reflexivity.
Qed.
Lemma position_index T i : m_index (position T i) = N.of_nat i.
Proof. induction i as [|i IH]; [reflexivity|]. cbn [position]. destruct (ends_line T i); cbn [m_index]; lia. Qed.
Lemma fpos_position T m : fpos T m -> is_position T m.
Proof. intros [t A]. destruct (adv_position T _ _ _ _ A 0) as (j & Hj & _ & E); auto; [lia|]. exists j. auto. Qed.
Lemma adv_text T t m : adv T mark0 t m -> t = skipn (N.to_nat (m_index m)) T.
Proof.
  intros A. destruct (adv_position T _ _ _ _ A 0) as (j & Hj & Ht & E); auto; [lia|]. rewrite E, position_index, Nat2N.id. exact Ht.
Qed.
Lemma fend_position T m : fend T m -> is_end_position T m.
Proof. intros [H|(m0 & H & C & E)]; [left; apply fpos_position; exact H|]. right. exists m0. split; [apply fpos_position; exact H|auto]. Qed.

(* --- the version directive --- *)
Lemma utf8_first x : x < 0x80 -> forall nm b, utf8 nm = x :: b -> exists nm', nm = x :: nm' /\ utf8 nm' = b.
Proof.
  intros Hx nm b. destruct nm as [|y nm]; [discriminate|]. cbn [utf8 flat_map]. intros H. unfold utf8_enc in H at 1.
  destruct (y <? 0x80) eqn:E; [cbn in H; injection H as -> <-; exists nm; auto|]. exfalso.
  destruct (y <? 0x800); [cbn in H; injection H; lia|]. destruct (y <? 0x10000); cbn in H; injection H; lia.
Qed.
Lemma utf8_yaml nm : utf8 nm = yaml_name -> nm = yaml_name.
Proof.
  unfold yaml_name. intros H.
  destruct (utf8_first 0x59 ltac:(lia) _ _ H) as (n1 & -> & H1). destruct (utf8_first 0x41 ltac:(lia) _ _ H1) as (n2 & -> & H2).
  destruct (utf8_first 0x4D ltac:(lia) _ _ H2) as (n3 & -> & H3). destruct (utf8_first 0x4C ltac:(lia) _ _ H3) as (n4 & -> & H4).
  destruct n4 as [|y n4]; [reflexivity|]. exfalso. cbn [utf8 flat_map] in H4. unfold utf8_enc in H4 at 1.
  destruct (y <? 0x80); [discriminate|]. destruct (y <? 0x800); [discriminate|]. destruct (y <? 0x10000); discriminate.
Qed.

Lemma dec_value ds : dec ds = value_of ds.
Proof.
  unfold dec, value_of, as_digit. generalize 0 as v. induction ds as [|d ds IH]; intros v; [reflexivity|]. cbn [fold_left].
  replace (v * 10) with (10 * v) by lia. apply IH.
Qed.
Lemma digits_forall ds : Forall (fun x => is_digit x = true) ds -> Forall (fun x => 0x30 <= x <= 0x39) ds.
Proof. apply Forall_impl. intros x H. unfold is_digit, in_range in H. lia. Qed.
Lemma version_text_at t a b : version_text t a b -> version_at t a b.
Proof.
  intros (nm & ws & d1 & d2 & r & -> & Y & W & D1 & D2 & L1 & L2 & R & -> & ->). apply utf8_yaml in Y. subst nm.
  exists ws, d1, d2, r. split; [reflexivity|]. split; [eapply Forall_impl; [|exact W]; intros x H; unfold is_blank, is_space, is_tab in H; lia|].
  split; [split; [exact L1|apply digits_forall; exact D1]|]. split; [split; [exact L2|apply digits_forall; exact D2]|].
  split; [unfold is_digit, in_range in R; lia|]. rewrite !dec_value. auto.
Qed.
Lemma value_bound ds : forall v, Forall (fun x => 0x30 <= x <= 0x39) ds ->
  fold_left (fun v d => 10 * v + (d - 0x30)) ds v < (v + 1) * 10 ^ N.of_nat (length ds).
Proof.
  induction ds as [|d ds IH]; intros v H; cbn [fold_left length]; [cbn; lia|]. inversion H; subst.
  specialize (IH (10 * v + (d - 0x30)) H3). eapply N.lt_le_trans; [exact IH|].
  rewrite Nat2N.inj_succ, N.pow_succ_r'. rewrite N.mul_assoc. apply N.mul_le_mono_r. lia.
Qed.
Lemma decimal_bound ds : is_decimal ds -> value_of ds < 10 ^ 9.
Proof.
  intros [L D]. pose proof (value_bound ds 0 D) as B. unfold value_of. eapply N.lt_le_trans; [exact B|].
  rewrite N.add_0_l, N.mul_1_l. apply N.pow_le_mono_r; lia.
Qed.

(* --- lists of tokens up to [t_deep] --- *)
Lemma flow_undeep d l : flow_from d (map undeep l) = flow_from d l.
Proof. revert d. induction l as [|x l IH]; intros d; [reflexivity|]. cbn [map flow_from fold_left]. apply (IH (flow_after d x)). Qed.
Lemma block_undeep d l : block_from d (map undeep l) = block_from d l.
Proof. revert d. induction l as [|x l IH]; intros d; [reflexivity|]. cbn [map block_from fold_left]. apply (IH (block_after d x)). Qed.
Lemma undeep_same t : t_deep t = false -> undeep t = t.
Proof. destruct t; cbn. intros ->. reflexivity. Qed.

(* what is known of a list of tokens that has been handed out or is in the queue *)
Record stream_ok (T : list N) (e : encoding) (all : list token) : Prop := {
  so_struct : struct 0 0 all;
  so_impl : implicit_ok 0 all;
  so_vers : Forall (version_ok T) all;
  so_deep : Forall (fun x => t_deep x = false) all;
  so_marks : marks_ok T all;
  so_sorted : exists hi, sorted 0 all hi;
  so_count : (length all <= 4 * length T + 2)%nat;
  so_first : match all with [] => True | x :: r => x = start_tok e /\ Forall (fun y => forall e, t_tok y <> TStreamStart e) r end;
  so_last : forall a x b, all = a ++ x :: b -> t_tok x = TStreamEnd -> b = [] }.

Lemma not_stream_last T e pre : good T e pre -> forall x, In x pre -> t_tok x <> TStreamEnd.
Proof. intros G x I E. destruct (good_tok T e pre x G I) as [H _]. unfold is_stream_end in H. rewrite E in H. discriminate. Qed.
Lemma good_first T e pre : good T e pre -> match pre with [] => True | x :: r => x = start_tok e /\ Forall (fun y => forall e, t_tok y <> TStreamStart e) r end.
Proof.
  intros G. destruct (g_first _ _ _ G) as (r & -> & F). split; [reflexivity|]. eapply Forall_impl; [|exact F]. intros y H e' E. unfold not_stream in H. rewrite E in H. exact H.
Qed.
Lemma in_mid {A} (a b : list A) x : In x (a ++ x :: b).
Proof. apply in_app_iff. right. left. reflexivity. Qed.

Lemma complete_ok T e pre m : complete T e pre m -> stream_ok T e (pre ++ [end_tok m]).
Proof.
  intros [G Bk Mk Ed So Cn]. pose proof (good_first _ _ _ G) as GF. pose proof (not_stream_last _ _ _ G) as NL. destruct G as [GS GI GV GD (r & GFr & _)].
  constructor.
  - apply struct_app. split; auto. fold (flow_depth pre) (block_depth pre). assert (GS' := GS). 
    assert (L0 : (0 <= block_depth pre)%Z).
    { replace pre with (pre ++ []) in GS' by apply app_nil_r. apply struct_app in GS' as [_ H]. exact (struct_low _ _ _ H). }
    cbn. split; [exact L0|]. split; [auto|]. split; [discriminate|]. split; [exact L0|exact I].
  - apply implicit_app; auto. apply implicit_none. constructor; [|constructor]. intros [K _]. discriminate.
  - apply Forall_app. split; auto. constructor; [exact I|constructor].
  - apply Forall_app. split; auto.
  - apply Forall_app. split; auto. constructor; [|constructor]. right. split; [right; reflexivity|]. split; [reflexivity|exact Ed].
  - exists (m_index m). apply sorted_app. exists (m_index m). split; auto. cbn. lia.
  - rewrite app_length. cbn. lia.
  - subst pre. cbn [app]. destruct GF as [E F]. split; [exact E|]. apply Forall_app. split; auto. constructor; [discriminate|constructor].
  - intros a x b E H. destruct b as [|z b'] using rev_ind; [reflexivity|clear IHb']. exfalso.
    rewrite app_comm_cons, app_assoc in E. apply app_inj_tail in E as [-> _]. exact (NL x (in_mid _ _ _) H).
Qed.
Lemma core_ok T es all s : core T 0 es all s -> stream_ok T (s_enc s) all.
Proof.
  intros C. pose proof (good_first _ _ _ (c_good _ _ _ _ _ C)) as GF. pose proof (not_stream_last _ _ _ (c_good _ _ _ _ _ C)) as NL.
  destruct C as [CA CP CS CE CR Cpos CF CK CI CB CG CM CO CN]. destruct CG as [GS GI GV GD GG].
  constructor; auto.
  - eapply Forall_impl; [|exact CM]. auto.
  - eauto.
  - lia.
  - intros a x b E H. exfalso. apply (NL x); [rewrite E; apply in_mid|exact H].
Qed.
Lemma live_ok T e es s : live T e es s -> stream_ok T e (es ++ s_tokens s).
Proof.
  intros [nest bad plan -> ->|all C St Av|F St Av|pre m -> Cp En Et Er].
  - cbn. constructor; cbn; auto; try (constructor; fail); try lia.
    + exists 0. lia.
    + intros a x b E. destruct a; discriminate.
  - rewrite <- (c_all _ _ _ _ _ C). assert (s_enc s = e) as <-; [|eapply core_ok; exact C].
    apply (starts_good T e es _ (s_tokens s) all St); [symmetry; apply (c_all _ _ _ _ _ C)|apply (c_good _ _ _ _ _ C)].
  - destruct (fi_all _ _ _ F) as (pre & E' & Cp). rewrite E'. assert (s_enc s = e) as <-; [|apply complete_ok; exact Cp].
    destruct St as [r ->]. destruct (g_first _ _ _ (cp_good _ _ _ _ Cp)) as (r' & E2 & _).
    rewrite E2 in E'. cbn in E'. injection E'. congruence.
  - rewrite Et, app_nil_r. apply complete_ok. exact Cp.
Qed.

(* --- the queue and the tokens handed out --- *)
Definition start_state e nest text bad plan := init_scanner e nest text bad plan.
Lemma scans_ok e nest T bad plan l s : scans (init_scanner e nest T bad plan) l s -> stream_ok T e (map undeep l ++ s_tokens s).
Proof. intros H. apply live_ok. eapply scans_live. exact H. Qed.
Lemma queue_undeep T e l q : stream_ok T e (map undeep l ++ q) -> map undeep (l ++ q) = map undeep l ++ q.
Proof.
  intros H. rewrite map_app. f_equal. pose proof (so_deep _ _ _ H) as D. apply Forall_app in D as [_ D].
  clear -D. induction D as [|x q Hx D IH]; [reflexivity|]. cbn. rewrite (undeep_same _ Hx), IH. reflexivity.
Qed.
(* a split of the list is a split of its image *)
Lemma undeep_split l a x b : l = a ++ x :: b -> map undeep l = map undeep a ++ undeep x :: map undeep b.
Proof. intros ->. rewrite map_app. reflexivity. Qed.

Lemma struct_at f d l a x b : struct f d l -> l = a ++ x :: b ->
  (0 <= block_from d a)%Z /\ (is_outer x = true -> flow_from f a = 0 -> block_from d a = 0%Z) /\ (is_block_token x = true -> flow_from f a = 0)
  /\ (0 <= block_after (block_from d a) x)%Z.
Proof.
  intros H ->. apply struct_app in H as [_ H]. cbn [struct] in H. destruct H as (H1 & H2 & H3 & H4). apply struct_low in H4. auto.
Qed.

Lemma has_value_find L f x l : has_value L f x l -> exists n v c, l = n ++ v :: c /\ flow_from f n = L /\ t_tok v = TValue
  /\ m_line (t_start v) = m_line (t_start x) /\ m_index (t_start v) <= m_index (t_start x) + 1024 /\
  (forall a y b, n = a ++ y :: b -> L <= flow_from f a /\ (flow_from f a = L -> is_node_token y = true)).
Proof.
  revert f. induction l as [|y l IH]; intros f H; [destruct H|]. cbn [has_value] in H. destruct H as (H1 & [(-> & V & M1 & M2)|[H2 H3]]).
  - exists [], y, l. repeat split; auto; destruct a; discriminate.
  - destruct (IH _ H3) as (n & v & c & -> & F & V & M1 & M2 & N). exists (y :: n), v, c. split; [reflexivity|]. split; [exact F|].
    repeat split; auto; destruct a as [|z a]; cbn in H; injection H as -> E; cbn [flow_from fold_left]; auto.
    + exact (proj1 (N _ _ _ E)).
    + exact (proj2 (N _ _ _ E)).
Qed.
Lemma implicit_at f l a x b : implicit_ok f l -> l = a ++ x :: b -> is_implicit_key x ->
  exists n v c, b = n ++ v :: c /\ n <> [] /\ node_tokens (flow_from f a) n /\ t_tok v = TValue
    /\ m_line (t_start v) = m_line (t_start x) /\ m_index (t_start v) <= m_index (t_start x) + 1024
    /\ (forall y r, n = y :: r -> t_start y = t_start x).
Proof.
  intros H -> K. apply implicit_suffix in H. cbn [implicit_ok] in H. destruct H as [H _]. destruct (H K) as (V & y & q & E & S & Ny).
  destruct (has_value_find _ _ _ _ V) as (n & v & c & E' & F & Tv & M1 & M2 & N). exists n, v, c. split; [exact E'|].
  assert (Nn : n <> []).
  { intros ->. cbn in E'. (* the first token after the key is a node token *)
    rewrite E in E'. injection E' as -> _. unfold is_node_token in Ny. rewrite Tv in Ny. discriminate. }
  split; [exact Nn|]. split; [split; [exact F|exact N]|]. repeat split; auto.
  intros y' r ->. rewrite E in E'. cbn in E'. injection E' as -> _. exact S.
Qed.

Lemma scans_split e nest T bad plan l s a x b :
  scans (init_scanner e nest T bad plan) l s -> l ++ s_tokens s = a ++ x :: b ->
  stream_ok T e (map undeep l ++ s_tokens s) /\ map undeep l ++ s_tokens s = map undeep a ++ undeep x :: map undeep b.
Proof.
  intros H E. pose proof (scans_ok _ _ _ _ _ _ _ H) as O. split; [exact O|]. rewrite <- (queue_undeep _ _ _ _ O). apply undeep_split. exact E.
Qed.
Lemma scans_prefix e nest T bad plan l s a x b :
  scans (init_scanner e nest T bad plan) l s -> l = a ++ x :: b ->
  stream_ok T e (map undeep l ++ s_tokens s) /\ map undeep l ++ s_tokens s = map undeep a ++ undeep x :: (map undeep b ++ s_tokens s).
Proof.
  intros H E. split; [eapply scans_ok; exact H|]. rewrite (undeep_split _ _ _ _ E), <- app_assoc. reflexivity.
Qed.

(* --- C13, C14 --- *)
Lemma calls_live e nest T bad plan s : calls (init_scanner e nest T bad plan) s ->
  exists es s0, live T e es s0 /\ (s = s0 \/ exists er, s = set_error s0 er /\ eend T er).
Proof.
  intros H. assert (G : exists es s0, live T e es s0 /\ (init_scanner e nest T bad plan = s0 \/ exists er, init_scanner e nest T bad plan = set_error s0 er /\ eend T er)).
  { exists [], (init_scanner e nest T bad plan). split; [eapply lv_init; reflexivity|left; reflexivity]. }
  revert G. generalize (init_scanner e nest T bad plan) as s1, H. clear H. intros s1 H.
  assert (Er : forall s0 er, scan (set_error s0 er) = ScanNothing (set_error s0 er)).
  { intros s0 er. unfold scan. cbn [s_ended s_error set_error]. rewrite orb_true_r. reflexivity. }
  induction H as [s1|s1 t s2 s3 E H IH|s1 s2 s3 E H IH|s1 s2 s3 E H IH]; intros (es & s0 & L & D).
  - exists es, s0. auto.
  - apply IH. destruct D as [->|(er & -> & _)]; [|rewrite Er in E; discriminate]. pose proof (scan_step _ _ _ _ L) as K. rewrite E in K.
    exists (es ++ [undeep t]), s2. auto.
  - apply IH. destruct D as [->|(er & -> & K)].
    + pose proof (scan_step _ _ _ _ L) as K. rewrite E in K. destruct K as [-> _]. exists es, s0. auto.
    + rewrite Er in E; injection E as <-. exists es, s0. split; [exact L|]. right. exists er. auto.
  - apply IH. destruct D as [->|(er & -> & K)]; [|rewrite Er in E; discriminate]. pose proof (scan_step _ _ _ _ L) as K. rewrite E in K.
    destruct K as (er & -> & K). exists es, s0. split; [exact L|]. right. exists er. auto.
Qed.
Lemma scan_error s0 er : scan (set_error s0 er) = ScanNothing (set_error s0 er).
Proof. unfold scan. cbn [s_ended s_error set_error]. rewrite orb_true_r. reflexivity. Qed.

Lemma scan_safe e nest T bad plan s : calls (init_scanner e nest T bad plan) s -> scan s <> ScanBad.
Proof.
  intros H E. destruct (calls_live _ _ _ _ _ _ H) as (es & s0 & L & [->|(er & -> & _)]); [|rewrite scan_error in E; discriminate].
  pose proof (scan_step _ _ _ _ L) as K. rewrite E in K. exact K.
Qed.
Lemma scan_returns e nest T bad plan s : calls (init_scanner e nest T bad plan) s -> scan s <> ScanFuel.
Proof.
  intros H E. destruct (calls_live _ _ _ _ _ _ H) as (es & s0 & L & [->|(er & -> & _)]); [|rewrite scan_error in E; discriminate].
  pose proof (scan_step _ _ _ _ L) as K. rewrite E in K. exact K.
Qed.
Lemma live_count T e es s : live T e es s -> (length es <= 4 * length T + 2)%nat.
Proof. intros L. apply live_ok in L. pose proof (so_count _ _ _ L) as C. rewrite app_length in C. lia. Qed.
Lemma scan_count e nest T bad plan l s : scans (init_scanner e nest T bad plan) l s -> (length l <= 4 * length T + 2)%nat.
Proof. intros H. apply scans_live in H. apply live_count in H. rewrite map_length in H. exact H. Qed.
Lemma scan_all_live T e n : forall es s, live T e es s -> (4 * length T + 3 < n + length es)%nat ->
  exists l o s', scan_all n s = (l, o) /\ scans s l s' /\
    ((o = Ended /\ scan s' = ScanNothing s' /\ s_error s' = None) \/
     (exists er s2, o = Failed er /\ scan s' = ScanFail s2 /\ s_error s2 = Some er)).
Proof.
  induction n as [|n IH]; intros es s L H.
  - apply live_count in L. lia.
  - cbn [scan_all]. pose proof (scan_step _ _ _ _ L) as K. destruct (scan s) as [t s'|s'|s'| |] eqn:E; try contradiction.
    + destruct (IH _ _ K) as (l & o & s2 & E1 & E2 & E3); [rewrite app_length; cbn; lia|]. rewrite E1. exists (t :: l), o, s2.
      split; [reflexivity|]. split; [econstructor; eauto|exact E3].
    + destruct K as (-> & K1 & K2). rewrite K2. exists [], Ended, s. split; [reflexivity|]. split; [constructor|]. left. auto.
    + destruct K as (er & -> & K). cbn [s_error set_error]. exists [], (Failed er), s. split; [reflexivity|]. split; [constructor|].
      right. exists er, (set_error s er). auto.
Qed.
Lemma scan_all_ends e nest T bad plan :
  exists l o, scan_all (4 * length T + 4) (init_scanner e nest T bad plan) = (l, o) /\ (o = Ended \/ exists er, o = Failed er).
Proof.
  destruct (scan_all_live T e (4 * length T + 4) [] (init_scanner e nest T bad plan)) as (l & o & s' & H & _ & D).
  - eapply lv_init; reflexivity.
  - cbn. lia.
  - exists l, o. split; [exact H|]. destruct D as [(-> & _)|(er & _ & -> & _)]; eauto.
Qed.

(* --- C15 --- *)
Lemma scan_first e nest T bad plan t l s : scans (init_scanner e nest T bad plan) (t :: l) s ->
  t_tok t = TStreamStart e /\ t_start t = mark0 /\ t_end t = mark0 /\ Forall (fun x => forall e', t_tok x <> TStreamStart e') l.
Proof.
  intros H. pose proof (so_first _ _ _ (scans_ok _ _ _ _ _ _ _ H)) as F. cbn in F. destruct F as [F1 F2]. unfold undeep, start_tok in F1. injection F1 as -> -> ->.
  repeat split. apply Forall_app in F2 as [F2 _]. rewrite Forall_map in F2. exact F2.
Qed.
Lemma scan_last e nest T bad plan l t l' s : scans (init_scanner e nest T bad plan) (l ++ t :: l') s -> t_tok t = TStreamEnd ->
  l' = [] /\ scan s = ScanNothing s.
Proof.
  intros H Ht. destruct (scans_prefix _ _ _ _ _ _ _ l t l' H eq_refl) as [O E].
  pose proof (so_last _ _ _ O _ _ _ E Ht) as N. apply app_eq_nil in N as [N1 N2]. apply map_eq_nil in N1. subst l'. split; [reflexivity|].
  pose proof (scans_live _ _ _ _ _ _ _ H) as L. destruct L as [nest' bad' plan' E' _|all C St Av|F St Av|pre m E' Cp En Et Er].
  - destruct l; discriminate.
  - exfalso. pose proof (c_all _ _ _ _ _ C) as CA. rewrite N2, app_nil_r in CA. rewrite map_app in CA. cbn [map] in CA.
    apply (not_stream_last _ _ _ (c_good _ _ _ _ _ C) (undeep t)); [rewrite CA; apply in_mid|exact Ht].
  - destruct (fi_tokens _ _ _ F); exact N2.
  - unfold scan. rewrite En. reflexivity.
Qed.
Lemma scan_end e nest T bad plan l s s' : scans (init_scanner e nest T bad plan) l s -> scan s = ScanNothing s' ->
  s' = s /\ exists l' t, l = l' ++ [t] /\ t_tok t = TStreamEnd.
Proof.
  intros H E. pose proof (scans_live _ _ _ _ _ _ _ H) as L. pose proof (scan_step _ _ _ _ L) as K. rewrite E in K. destruct K as (-> & K1 & K2).
  split; [reflexivity|]. destruct L as [nest' bad' plan' E' Es|all C St Av|F St Av|pre m E' Cp En Et Er].
  - subst s. discriminate.
  - rewrite (c_ended _ _ _ _ _ C) in K1. discriminate.
  - rewrite (fi_ended _ _ _ F) in K1. discriminate.
  - destruct l as [|t l'] using rev_ind; [destruct pre; discriminate|clear IHl']. exists l', t. split; [reflexivity|].
    rewrite map_app in E'. cbn [map] in E'. apply app_inj_tail in E' as [_ E']. unfold undeep, end_tok in E'. injection E' as E' _ _. exact E'.
Qed.
Lemma scan_stays e nest T bad plan s s' : calls (init_scanner e nest T bad plan) s -> scan s = ScanNothing s' \/ scan s = ScanFail s' ->
  scan s' = ScanNothing s'.
Proof.
  intros H D. destruct (calls_live _ _ _ _ _ _ H) as (es & s0 & L & [->|(er & -> & _)]).
  - pose proof (scan_step _ _ _ _ L) as K. destruct D as [D|D]; rewrite D in K.
    + destruct K as [-> _]. exact D.
    + destruct K as (er & -> & _). apply scan_error.
  - destruct D as [D|D]; rewrite scan_error in D; [|discriminate]. injection D as <-. apply scan_error.
Qed.

(* --- C16 --- *)
Lemma scan_block e nest T bad plan l s a x b : scans (init_scanner e nest T bad plan) l s -> l ++ s_tokens s = a ++ x :: b ->
  (0 <= block_depth a)%Z /\ (is_block_token x = true -> flow_depth a = 0) /\ (t_tok x = TBlockEnd -> (0 < block_depth a)%Z)
  /\ (is_outer x = true -> flow_depth a = 0 -> block_depth a = 0%Z).
Proof.
  intros H E. destruct (scans_split _ _ _ _ _ _ _ _ _ _ H E) as [O E'].
  destruct (struct_at _ _ _ _ _ _ (so_struct _ _ _ O) E') as (H1 & H2 & H3 & H4). rewrite flow_undeep, block_undeep in *.
  change (is_outer (undeep x)) with (is_outer x) in H2. change (is_block_token (undeep x)) with (is_block_token x) in H3.
  change (block_after (block_from 0 a) (undeep x)) with (block_after (block_from 0 a) x) in H4.
  split; [exact H1|]. split; [exact H3|]. split; [|exact H2]. intros K. unfold block_after in H4. rewrite K in H4. unfold block_depth. lia.
Qed.

(* --- C17 --- *)
Lemma node_undeep d n n0 : n = map undeep n0 -> node_tokens d n -> node_tokens d n0.
Proof.
  intros -> [F H]. split; [rewrite flow_undeep in F; exact F|]. intros a x b E. specialize (H (map undeep a) (undeep x) (map undeep b)).
  rewrite flow_undeep in H. apply H. apply undeep_split. exact E.
Qed.
Lemma map_split {A B} (f : A -> B) l a b : map f l = a ++ b -> exists a' b', l = a' ++ b' /\ map f a' = a /\ map f b' = b.
Proof.
  revert a. induction l as [|x l IH]; intros a H; cbn in H.
  - exists [], []. symmetry in H. apply app_eq_nil in H as [-> ->]. auto.
  - destruct a as [|y a]; cbn in H.
    + exists [], (x :: l). auto.
    + injection H as H1 H2. destruct (IH _ H2) as (a' & b' & -> & E1 & E2). exists (x :: a'), b'. cbn. rewrite E1, H1. auto.
Qed.
Lemma scan_implicit e nest T bad plan l s a k b : scans (init_scanner e nest T bad plan) l s -> l ++ s_tokens s = a ++ k :: b ->
  is_implicit_key k ->
  exists n v c, b = n ++ v :: c /\ n <> [] /\ node_tokens (flow_depth a) n /\ t_tok v = TValue
    /\ m_line (t_start v) = m_line (t_start k) /\ m_index (t_start v) <= m_index (t_start k) + 1024
    /\ (forall y r, n = y :: r -> t_start y = t_start k).
Proof.
  intros H E K. destruct (scans_split _ _ _ _ _ _ _ _ _ _ H E) as [O E'].
  destruct (implicit_at _ _ _ _ _ (so_impl _ _ _ O) E' K) as (n & v & c & Eb & Nn & Nt & V & M1 & M2 & Fs). rewrite flow_undeep in Nt.
  destruct (map_split _ _ _ _ Eb) as (n0 & vc & -> & En & Evc). destruct vc as [|v0 c0]; [discriminate|]. cbn in Evc. injection Evc as Ev Ec. subst v c.
  exists n0, v0, c0. split; [reflexivity|]. split; [intros ->; apply Nn; subst n; reflexivity|].
  split; [exact (node_undeep _ _ _ (eq_sym En) Nt)|]. split; [exact V|]. split; [exact M1|]. split; [exact M2|]. intros y r Er. specialize (Fs (undeep y) (map undeep r)). subst n0. apply Fs. subst n. reflexivity.
Qed.

(* --- C18 --- *)
Lemma scan_marks e nest T bad plan l s t : scans (init_scanner e nest T bad plan) l s -> In t l ->
  (is_position T (t_start t) /\ is_position T (t_end t)) \/
  ((t_tok t = TBlockEnd \/ t_tok t = TStreamEnd) /\ t_end t = t_start t /\ is_end_position T (t_start t)).
Proof.
  intros H I. pose proof (so_marks _ _ _ (scans_ok _ _ _ _ _ _ _ H)) as M. apply Forall_app in M as [M _]. rewrite Forall_map, Forall_forall in M.
  destruct (M t I) as [[M1 M2]|(M1 & M2 & M3)]; [left|right].
  - split; apply fpos_position; assumption.
  - split; [exact M1|]. split; [exact M2|]. apply fend_position. exact M3.
Qed.
Lemma scan_error_mark e nest T bad plan s s' : calls (init_scanner e nest T bad plan) s -> scan s = ScanFail s' ->
  exists er, s_error s' = Some er /\ is_end_position T (se_mark er) /\ match se_context er with Some m => is_position T m | None => True end.
Proof.
  intros H E. destruct (calls_live _ _ _ _ _ _ H) as (es & s0 & L & [->|(er & -> & _)]); [|rewrite scan_error in E; discriminate].
  pose proof (scan_step _ _ _ _ L) as K. rewrite E in K. destruct K as (er & -> & K1 & K2). exists er. split; [reflexivity|]. split; [apply fend_position; exact K1|].
  destruct (se_context er); [apply fpos_position; exact K2|exact I].
Qed.
Lemma sorted_in lo l hi : sorted lo l hi -> (forall t, In t l -> lo <= m_index (t_start t) /\ m_index (t_start t) <= m_index (t_end t)) /\
  (forall a x b y c, l = a ++ x :: b ++ y :: c -> m_index (t_end x) <= m_index (t_start y)).
Proof.
  revert lo. induction l as [|z l IH]; intros lo H.
  - split; [intros t []|]. intros a x b y c E. destruct a; discriminate.
  - cbn in H. destruct H as (H1 & H2 & H3). destruct (IH _ H3) as [I1 I2]. split.
    + intros t [<-|I]; [auto|]. destruct (I1 t I). split; lia.
    + intros a x b y c E. destruct a as [|a0 a]; cbn in E; injection E as -> E.
      * destruct (I1 y); [rewrite E; apply in_app_iff; right; left; reflexivity|]. assumption.
      * eapply I2. exact E.
Qed.
Lemma scan_in_order e nest T bad plan l s : scans (init_scanner e nest T bad plan) l s -> in_order l.
Proof.
  intros H. destruct (so_sorted _ _ _ (scans_ok _ _ _ _ _ _ _ H)) as [hi S]. apply sorted_app in S as (mid & S & _).
  destruct (sorted_in _ _ _ S) as [S1 S2]. split.
  - intros t I. apply (S1 (undeep t)). apply in_map. exact I.
  - intros a x b y c E. apply (S2 (map undeep a) (undeep x) (map undeep b) (undeep y) (map undeep c)). subst l.
    rewrite map_app. cbn [map]. rewrite map_app. reflexivity.
Qed.

(* --- C19 --- *)
Lemma scan_version e nest T bad plan l s t major minor : scans (init_scanner e nest T bad plan) l s -> In t l -> t_tok t = TVersion major minor ->
  version_at (skipn (N.to_nat (m_index (t_start t))) T) major minor /\ major < 10 ^ 9 /\ minor < 10 ^ 9.
Proof.
  intros H I E. pose proof (so_vers _ _ _ (scans_ok _ _ _ _ _ _ _ H)) as V. apply Forall_app in V as [V _]. rewrite Forall_map, Forall_forall in V.
  specialize (V t I). unfold version_ok in V. cbn [undeep t_tok t_start] in V. rewrite E in V. destruct V as (t' & A & V). apply adv_text in A. subst t'.
  apply version_text_at in V. split; [exact V|]. destruct V as (ws & d1 & d2 & r & _ & _ & D1 & D2 & _ & -> & ->).
  split; apply decimal_bound; assumption.
Qed.
Lemma long_number t m c start ds r : hold 1 t m c -> t = ds ++ r -> Forall (fun x => 0x30 <= x <= 0x39) ds -> (10 <= length ds)%nat ->
  exists e, scan_version_number start c = CErr e.
Proof.
  intros H E D L. pose proof (p_scan_version_number t m start 1 t m c (fun _ _ => False) (pos_start _ _ _ _ H)) as W.
  unfold wp in W. assert (K : match scan_version_number start c with COk _ _ => False | CErr e => epos t m (Some start) e | _ => False end).
  { apply W. intros ds' t' m' c' _ _ E' D' L' N.
    assert (S : exists q, ds = ds' ++ q /\ t' = q ++ r).
    { assert (Ed : ds' = firstn (length ds') ds).
      { transitivity (firstn (length ds') (ds' ++ t')); [symmetry; apply firstn_all_app|]. rewrite <- E', E, firstn_app.
        replace (length ds' - length ds)%nat with O by lia. cbn. apply app_nil_r. }
      exists (skipn (length ds') ds). split; [rewrite Ed at 1; symmetry; apply firstn_skipn|].
      assert (skipn (length ds') t = t') as <- by (rewrite E'; apply skipn_all_app). rewrite E, skipn_app.
      replace (length ds' - length ds)%nat with O by lia. reflexivity. }
    destruct S as (q & -> & ->). destruct q as [|x q]; [rewrite app_nil_r in L; lia|]. cbn in N. apply Forall_app in D as [_ D]. inversion D; subst.
    unfold is_digit, in_range in N. lia. }
  destruct (scan_version_number start c); try contradiction. eauto.
Qed.

(* running the model gives a history *)
Lemma scan_all_scans n : forall s l o, scan_all n s = (l, o) -> exists s', scans s l s'.
Proof.
  induction n as [|n IH]; intros s l o H; cbn [scan_all] in H.
  - injection H as <- _. eexists. constructor.
  - destruct (scan s) as [t s1|s1|s1| |] eqn:E; try (injection H as <- _; eexists; constructor).
    destruct (scan_all n s1) as [l1 o1] eqn:E1. injection H as <- _. destruct (IH _ _ _ E1) as [s' H']. exists s'. econstructor; eauto.
Qed.

Lemma hold_start c : (1 <= c_unread c)%nat -> hold 1 (c_text c) (c_mark c) c.
Proof. unfold hold. intros. repeat split. lia. Qed.
