(* Reading the written texts of flow collections. *)
From Verif Require Import Base ReaderModel Utf8Spec CharSpec Types CursorModel ScanModel ScannerModel CursorProofs ScanProofs ScanQuoted ScannerInv PlanFree FullRun WriterModel WriterSpec PenModel PenText TreeSpec AgreeSpec GrammarSpec RoundSpec EagerScan TagRun DoubleTrip SingleTrip PlainTrip ScanStep TextGrammar ReadLeaf.

Lemma heights_cons x xs : heights (x :: xs) = Nat.max (height x) (heights xs).
Proof. reflexivity. Qed.
Lemma pheights_cons k v ps : pheights ((k, v) :: ps) = Nat.max (Nat.max (height k) (height v)) (pheights ps).
Proof. reflexivity. Qed.
Lemma adv_flat w : forall t m, existsb is_break w = false -> adv (w ++ t) m t (next_column (nlen w) m).
Proof.
  induction w as [|c w IH]; intros t m H; [cbn [app]; rewrite next_column_0; constructor|]. cbn [existsb] in H. apply orb_false_iff in H as [H1 H2].
  cbn [app]. apply adv_char; [exact H1|]. replace (next_column (nlen (c :: w)) m) with (next_column (nlen w) (next_column 1 m)) by (rewrite next_column_add, (nlen_S c w); reflexivity). apply IH. exact H2.
Qed.
Lemma adv_flat_end w t m m' : existsb is_break w = false -> adv (w ++ t) m t m' -> m' = next_column (nlen w) m.
Proof. intros H A. exact (adv_det _ _ _ _ A _ _ (adv_flat w t m H) eq_refl). Qed.

Section Flow.
Variables (enc : encoding) (nest : Z) (g : cfg) (e : env).
Hypothesis B : g_break g <> AnyBreak.
Hypothesis Hind : (2 <= g_indent g)%Z.
Hypothesis Hnest : (nest <= Z.of_N INT_MAX)%Z.
Notation st := (st enc nest). Notation fits := (fits nest). Notation chain := (chain enc nest).
Definition room (is : list Z) (f : N) (h : nat) : Prop := (Z.of_nat (length is) + Z.of_N f + Z.of_nat h < nest)%Z.

Lemma alpha_no_break w : Forall (fun c => is_alpha c = true) w -> existsb is_break w = false.
Proof. induction 1 as [|c w H F IH]; [reflexivity|]. cbn [existsb]. rewrite IH, orb_false_r. unfold is_alpha, is_break, is_digit, is_upper, is_lower, in_range in *. lia. Qed.

(* what may follow an item *)
Definition flow_follow (r : list N) : Prop :=
  nth 0 r 0 = 0x2C \/ nth 0 r 0 = 0x5D \/ nth 0 r 0 = 0x7D \/ (nth 0 r 0 = 0x3A /\ is_blankz (nth 1 r 0) = true).
Lemma follow_starts r : flow_follow r -> starts r.
Proof. intros [H|[H|[H|[H _]]]]; unfold starts; rewrite H; repeat split; discriminate. Qed.
Lemma white_head ws r : white_text ws -> (ws = [] /\ nth 0 (ws ++ r) 0 = nth 0 r 0) \/ (ws <> [] /\ is_blankz (nth 0 (ws ++ r) 0) = true).
Proof.
  intros W. destruct W as [|c ws H W]; [left; auto|right]. split; [discriminate|]. cbn [app nth]. unfold is_blankz, is_blank, is_space, is_breakz.
  destruct H as [-> | H]; [reflexivity|]. unfold is_break in *. lia.
Qed.
Lemma flow_ends f i ws r : f <> 0 -> white_text ws -> flow_follow r -> ends f i ws r.
Proof.
  intros F W R. unfold ends. assert (Fl : fl f = true) by (unfold fl; destruct (N.eqb_spec f 0); [contradiction|reflexivity]).
  split; [exact W|]. split; [exact (follow_starts r R)|]. split; [|split].
  - rewrite Fl. destruct R as [H|[H|[H|H]]]; [right; right; left; rewrite H; auto|right; right; left; rewrite H; auto|right; right; left; rewrite H; auto|right; left; exact H].
  - destruct (white_head ws r W) as [[_ ->]|[_ H]]; [|intros X; rewrite X in H; discriminate]. destruct R as [H|[H|[H|[H _]]]]; rewrite H; discriminate.
  - destruct (white_head ws r W) as [[_ ->]|[_ H]]; [|exact (blankz_anchor_end _ H)]. destruct R as [H|[H|[H|[H _]]]]; rewrite H; reflexivity.
Qed.
Lemma colon_ends f i tail t : tail = [] \/ tail = [0x20] -> is_blankz (nth 0 t 0) = true -> ends f i tail (0x3A :: t).
Proof.
  intros T Z. unfold ends. split; [destruct T as [-> | ->]; repeat constructor|]. split; [apply starts_ascii; [reflexivity|reflexivity|discriminate|lia]|].
  split; [right; left; split; [reflexivity|exact Z]|]. destruct T as [-> | ->]; split; (reflexivity || discriminate).
Qed.

(* ---- opening a collection ---- *)
Lemma props_flat a t pw pt : ptext e a t pw pt -> forall rest m m', is_blankz (nth 0 rest 0) = true -> adv (pw ++ rest) m rest m' -> m' = next_column (nlen pw) m.
Proof.
  intros P rest m m' Z A. destruct pw as [|x pw]; [cbn [app nlen length] in *|].
  - assert (m' = m) by (exact (adv_det _ _ _ _ A _ _ (adv_refl rest m) eq_refl)). subst. symmetry. apply next_column_0.
  - assert (At : at_column 1 0%Z m) by (left; discriminate).
    destruct (props_chain enc nest e a t (x :: pw) pt 1 0%Z rest m P ltac:(discriminate) Z At) as (l & C & _). pose proof (chain_adv _ _ _ _ _ _ _ _ _ _ C) as A2.
    exact (adv_det _ _ _ _ A _ _ A2 eq_refl).
Qed.
Lemma ptext_nil a t pt : ptext e a t [] pt -> a = None /\ t = None /\ pt = [].
Proof.
  intros P. inversion P as [|? ? |? ? ? ? T|]; subst; [auto|]. inversion T as [h0 x0 ? ? ? Fi]. destruct (tag_head_text _ _ Fi) as (w1 & Ew). congruence.
Qed.
Lemma later_line m m' ks : m_line m' = m_line m -> idle m ks -> idle m' ks.
Proof. intros E. apply idle_later. lia. Qed.
(* the anchor and the tag, and the space *)
Lemma props_leads a t pw pt f i q is al ks t1 m : ptext e a t pw pt -> starts t1 -> fits is f -> at_column f i m -> calm f i m al -> idle m ks ->
  let m' := next_column (nlen (pw ++ sep pw)) m in
  exists l ks' al', leads (st (pw ++ sep pw ++ t1) m f q is i al ks) (st t1 m' f (q ++ l) is i al' ks') /\ adv (pw ++ sep pw ++ t1) m t1 m' /\ idle m' ks' /\ kept al ks ks' /\
    (if match pw with [] => true | _ => false end then al' = al /\ ks' = ks /\ l = [] else al' = false) /\ map t_tok l = pt.
Proof.
  intros P St F At Ca I m'. destruct pw as [|x pw].
  - destruct (ptext_nil a t pt P) as (_ & _ & ->). unfold m'. cbn [app sep]. change (nlen []) with 0. rewrite next_column_0. exists [], ks, al. rewrite app_nil_r.
    split; [apply leads_refl|]. split; [constructor|]. split; [exact I|]. split; [apply fewer_kept; [apply I|apply fewer_refl]|auto].
  - destruct (props_chain enc nest e a t (x :: pw) pt f i (0x20 :: t1) m P ltac:(discriminate) eq_refl At) as (l0 & C0 & T0).
    destruct (chain_idle enc nest f i _ _ _ _ _ _ C0 q is al ks F I Ca) as (ks' & L & I' & K).
    assert (Em : m' = next_column 1 (next_column (nlen (x :: pw)) m)) by (unfold m'; rewrite next_column_add; f_equal; unfold nlen; rewrite app_length; cbn [sep length]; lia).
    exists l0, ks', false. split; [|split; [|split; [|split; [exact K|split; [reflexivity|exact T0]]]]].
    + eapply leads_trans; [exact L|]. rewrite Em. apply leads_alike. exact (alike_spaces enc nest 1 t1 _ f _ is i false ks' St).
    + rewrite Em. eapply adv_trans; [exact (chain_adv _ _ _ _ _ _ _ _ _ _ C0)|]. apply adv_one. reflexivity.
    + rewrite Em. eapply later_line; [|exact I']. reflexivity.
Qed.
Lemma open_leads a t pw pt x tk f i q is al ks t1 m : ptext e a t pw pt -> opening x tk -> fits is (f + 1) -> at_column f i m -> calm f i m al -> idle m ks ->
  exists m' l ks', leads (st (pw ++ sep pw ++ x :: t1) m f q is i al ks) (st t1 m' (f + 1) (q ++ l) is i true (key0 :: ks')) /\ adv (pw ++ sep pw ++ x :: t1) m t1 m' /\
    idle m' ks' /\ kept al ks ks' /\ map t_tok l = pt ++ [tk].
Proof.
  intros P O F At Ca I.
  assert (F0 : fits is f) by (unfold ScanStep.fits in *; lia).
  assert (St : starts (x :: t1)) by (destruct O as [[-> _]|[-> _]]; (apply starts_ascii; [reflexivity|reflexivity|discriminate|lia])).
  assert (Bx : is_break x = false) by (destruct O as [[-> _]|[-> _]]; reflexivity).
  destruct (props_leads a t pw pt f i q is al ks (x :: t1) m P St F0 At Ca I) as (l & ks1 & al1 & L1 & A1 & I1 & K1 & E1 & T1).
  set (m1 := next_column (nlen (pw ++ sep pw)) m) in *.
  destruct (idle_stale m1 ks1 I1) as (k & kr & Es & I2 & F2).
  exists (next_column 1 m1), (l ++ [mark_token tk m1]), ((if al1 then new_key f (q ++ l) i m1 else k) :: kr).
  split; [|split; [|split; [|split]]].
  - eapply leads_trans; [exact L1|]. rewrite app_assoc. apply (open_step enc nest x tk t1 m1 f (q ++ l) is i al1 ks1 k kr O (at_later _ _ _ _ At) F Hnest Es).
    intros _. exact (harmless_soft _ _ _ I2).
  - eapply adv_trans; [exact A1|]. apply adv_one. exact Bx.
  - destruct I2 as [_ T2]. inversion T2 as [|? ? Hk Tk]; subst. split; [discriminate|]. constructor; [|exact Tk]. destruct al1; [|exact Hk].
    intros _. split; [|cbn [new_key k_mark next_column m_line]; lia]. destruct pw as [|y pw]; [|discriminate E1]. destruct E1 as (E1 & _). apply (calm_key f i m1 true (q ++ l)); [|reflexivity].
    destruct Ca as [Ca|[Ca|Ca]]; [left; exact Ca|congruence|right; right; unfold m1; cbn [next_column m_column]; lia].
  - destruct al1.
    + destruct pw; [|discriminate E1]. destruct E1 as (<- & -> & _). inversion F2; subst. split; [discriminate|assumption].
    + apply kept_trans with (b := ks1); [exact K1|]. apply fewer_kept; [apply I1|exact F2].
  - rewrite map_app, T1. reflexivity.
Qed.

(* ---- simple keys ---- *)
Notation width ind := (Z.to_nat (content_indent g ind)).
Lemma width_pos ind : (-1 <= ind)%Z -> (1 <= width ind)%nat /\ (ind < Z.of_nat (width ind))%Z.
Proof. intros H. unfold content_indent. destruct (Z.ltb_spec ind 0); lia. Qed.
Lemma break_text_flat w t m m' : existsb is_break w = false -> adv (w ++ t) m t m' -> m_line m' = m_line m /\ m_index m' = m_index m + nlen w.
Proof. intros H A. rewrite (adv_flat_end w t m m' H A). auto. Qed.
Lemma flat_app a b : existsb is_break (a ++ b) = existsb is_break a || existsb is_break b.
Proof. apply existsb_app. Qed.
Lemma props_adv a t pw pt rest m : ptext e a t pw pt -> adv (pw ++ sep pw ++ rest) m rest (next_column (nlen (pw ++ sep pw)) m).
Proof.
  intros P. destruct pw as [|x pw]; [cbn [app sep]; change (nlen []) with 0; rewrite next_column_0; constructor|].
  assert (At : at_column 1 0%Z m) by (left; discriminate).
  destruct (props_chain enc nest e a t (x :: pw) pt 1 0%Z (0x20 :: rest) m P ltac:(discriminate) eq_refl At) as (l & C & _).
  eapply adv_trans; [exact (chain_adv _ _ _ _ _ _ _ _ _ _ C)|].
  replace (nlen ((x :: pw) ++ sep (x :: pw))) with (nlen (x :: pw) + 1) by (unfold nlen; rewrite app_length; cbn [sep length]; lia). rewrite <- next_column_add. apply adv_one. reflexivity.
Qed.
Lemma opening_closing x tk x' tk' : opening x tk -> closing x' tk' -> is_break x = false /\ is_break x' = false /\ starts [x] /\ starts [x'].
Proof.
  intros [[-> _]|[-> _]] [[-> _]|[-> _]]; (split; [reflexivity|]; split; [reflexivity|]; split; (apply starts_ascii; [reflexivity|reflexivity|discriminate|lia])).
Qed.
Lemma fresh_key m m' f q i : m_line m' = m_line m -> m_index m' <= m_index m + 1024 -> too_old m' (new_key f q i m) = false.
Proof. intros H1 H2. unfold too_old, new_key. cbn [k_mark]. apply orb_false_iff. split; apply N.ltb_ge; lia. Qed.
Lemma key0_harmless m : harmless m key0.
Proof. intros H. discriminate H. Qed.
(* empty collections *)
Lemma pair_key a t pw pt x tk x' tk' f i is q ks rest m : ptext e a t pw pt -> (length pw <= 900)%nat -> opening x tk -> closing x' tk' -> fits is (f + 1) -> at_column f i m -> idle m ks ->
  let w := pw ++ sep pw ++ [x; x'] in let m' := next_column (nlen w) m in
  exists l kr, leads (st (w ++ rest) m f q is i true ks) (st rest m' f (q ++ l) is i false (new_key f q i m :: kr)) /\ adv (w ++ rest) m rest m' /\ tidy m' kr /\ fewer (tl ks) kr /\
    map t_tok l = pt ++ [tk; tk'].
Proof.
  intros P Lp O C F At I w m'. destruct (opening_closing x tk x' tk' O C) as (B1 & B2 & S1 & S2).
  assert (F0 : fits is f) by (unfold ScanStep.fits in *; lia).
  set (m1 := next_column (nlen (pw ++ sep pw)) m).
  assert (Em : m' = next_column 1 (next_column 1 m1)).
  { unfold m', m1, w. rewrite !next_column_add. f_equal. unfold nlen. rewrite !app_length. cbn [length]. lia. }
  assert (Lw : nlen w <= 1024) by (unfold w, nlen; rewrite !app_length; cbn [length]; destruct pw; cbn [sep length] in *; lia).
  assert (Lw1 : nlen (pw ++ sep pw) <= 1000) by (unfold nlen; rewrite !app_length; destruct pw; cbn [sep length] in *; lia).
  (* up to the opening indicator *)
  assert (Step1 : exists l kr, leads (st (w ++ rest) m f q is i true ks) (st (x' :: rest) (next_column 1 m1) (f + 1) (q ++ l ++ [mark_token tk m1]) is i true (key0 :: new_key f q i m :: kr)) /\
     tidy m1 kr /\ fewer (tl ks) kr /\ map t_tok l = pt).
  { destruct pw as [|y pw].
    - destruct (ptext_nil a t pt P) as (_ & _ & ->). unfold m1, w. cbn [app sep]. change (nlen []) with 0. rewrite next_column_0.
      destruct (idle_stale m ks I) as (k & kr & Es & I2 & F2). exists [], kr. cbn [app].
      split; [|split; [|split; [inversion F2; subst; assumption|reflexivity]]].
      + apply (open_step enc nest x tk (x' :: rest) m f q is i true ks k kr O At F Hnest Es). intros _. exact (harmless_soft _ _ _ I2).
      + destruct I2 as [_ T]. inversion T; subst. assumption.
    - destruct (props_chain enc nest e a t (y :: pw) pt f i (0x20 :: x :: x' :: rest) m P ltac:(discriminate) eq_refl At) as (l & C0 & T0).
      pose proof (chain_adv _ _ _ _ _ _ _ _ _ _ C0) as A0.
      destruct (chain_key enc nest f i _ _ _ _ _ _ C0 q is ks F0 I) as (kr & L & Tk & Fe); [reflexivity|cbn [next_column m_index]; unfold nlen; cbn [length] in *; lia|].
      assert (E1 : m1 = next_column 1 (next_column (nlen (y :: pw)) m)) by (unfold m1; rewrite next_column_add; f_equal; unfold nlen; rewrite app_length; cbn [sep length]; lia).
      destruct (fresh_stale m1 (new_key f q i m) kr) as (kr' & Es & Tk' & Fe').
      { rewrite E1. eapply tidy_later; [|exact Tk]. reflexivity. }
      { apply fresh_key; [reflexivity|]. unfold m1. cbn [next_column m_index]. lia. }
      exists l, kr'. split; [|split; [exact Tk'|split; [eapply fewer_trans; eauto|exact T0]]].
      unfold w. rewrite <- !app_assoc. eapply leads_trans; [exact L|].
      assert (St1 : starts (x :: x' :: rest)) by exact S1.
      eapply leads_trans; [apply leads_alike; exact (alike_spaces enc nest 1 (x :: x' :: rest) _ f (q ++ l) is i false _ St1)|].
      change (N.of_nat 1) with 1. rewrite <- E1, app_assoc.
      apply (open_step enc nest x tk (x' :: rest) m1 f (q ++ l) is i false _ (new_key f q i m) kr' O (at_later _ _ _ _ At) F Hnest Es). discriminate. }
  destruct Step1 as (l & kr & L1 & Tk & Fe & T0).
  destruct (fresh_stale (next_column 1 m1) (new_key f q i m) kr) as (kr' & Es & Tk' & Fe').
  { eapply tidy_later; [|exact Tk]. reflexivity. }
  { apply fresh_key; [reflexivity|]. unfold m1. cbn [next_column m_index]. lia. }
  exists (l ++ [mark_token tk m1; mark_token tk' (next_column 1 m1)]), kr'.
  split; [|split; [|split; [|split; [eapply fewer_trans; eauto|rewrite map_app, T0; reflexivity]]]].
  - eapply leads_trans; [exact L1|].
    assert (Es0 : stale (next_column 1 m1) (key0 :: new_key f q i m :: kr) = inl (key0 :: new_key f q i m :: kr')) by (cbn [stale] in Es |- *; rewrite Es; reflexivity).
    pose proof (close_step enc nest x' tk' rest (next_column 1 m1) f (q ++ l ++ [mark_token tk m1]) is i true (key0 :: new_key f q i m :: kr) key0 (new_key f q i m :: kr') C F0 ltac:(discriminate) Es0 eq_refl) as L2.
    rewrite Em. rewrite <- !app_assoc in L2. cbn [app] in L2. exact L2.
  - rewrite Em. unfold w. rewrite <- !app_assoc. eapply adv_trans; [exact (props_adv a t pw pt _ m P)|]. eapply adv_trans; [apply adv_one; exact B1|apply adv_one; exact B2].
  - rewrite Em. eapply tidy_later; [|exact Tk']. reflexivity.
Qed.

Lemma key_reads flow ind x w tail : ktext g e flow ind x w tail -> (-1 <= ind)%Z -> w <> [] /\ starts w /\
  forall f i is q ks t m, fl f = flow -> flow = true \/ (i <= ind)%Z -> room is f (height x) -> at_column f i m -> idle m ks -> is_blankz (nth 0 t 0) = true ->
  exists m' l al kr, leads (st (w ++ tail ++ 0x3A :: t) m f q is i true ks) (st (0x3A :: t) m' f (q ++ l) is i al (new_key f q i m :: kr)) /\ adv (w ++ tail ++ 0x3A :: t) m (0x3A :: t) m' /\
    m_line m' = m_line m /\ m_index m' <= m_index m + 1024 /\ tidy m' kr /\ fewer (tl ks) kr /\ (forall k, node common e k (map t_tok l) x).
Proof.
  intros K Hi. destruct K as [x w ts tail Lf Ht Bw Lw|a t pw pt P Lp|a t pw pt P Lp].
  - assert (W : w <> [] /\ starts w).
    { destruct (width_pos ind Hi) as [W1 W2].
      destruct (leaf_chain enc nest g e B flow (width ind) x w ts (if flow then 1 else 0) (-1)%Z tail [0x3A] mark0 Lf) as (H1 & H2 & _); auto; [destruct flow; reflexivity|lia|right; cbn; lia|exact (colon_ends _ _ tail [] Ht eq_refl)]. }
    destruct W as [Nw Sw]. split; [exact Nw|]. split; [exact Sw|]. intros f i is q ks t m Fl Hf F At I Z. destruct (width_pos ind Hi) as [W1 W2].
    assert (F0 : fits is f) by (unfold room, ScanStep.fits in *; lia).
    destruct (leaf_chain enc nest g e B flow (width ind) x w ts f i tail (0x3A :: t) m Lf Fl W1) as (_ & _ & t' & m' & al & l & C & Tl & Te); [destruct Hf; [auto|right; lia]|exact At|exact (colon_ends f i tail t Ht Z)|].
    pose proof (chain_adv _ _ _ _ _ _ _ _ _ _ C) as A.
    assert (Bt : existsb is_break tail = false) by (destruct Ht as [-> | ->]; reflexivity).
    assert (Lt : nlen tail <= 1) by (destruct Ht as [-> | ->]; cbn; lia).
    assert (E : m_line m' = m_line m /\ m_index m' <= m_index m + 1024 /\ exists m2, adv t' m' (0x3A :: t) m2 /\ m_line m2 = m_line m /\ m_index m2 <= m_index m + 1024 /\ (forall kr, leads (st t' m' f (q ++ l) is i al kr) (st (0x3A :: t) m2 f (q ++ l) is i al kr))).
    { unfold nlen in *. destruct Te as [[-> ->]|[-> ->]].
      - destruct (break_text_flat w _ m m' Bw A) as [E1 E2]. unfold nlen in *. split; [exact E1|]. split; [lia|].
        exists (next_column (nlen tail) m'). split; [apply adv_flat; exact Bt|]. split; [exact E1|]. split; [cbn [next_column m_index]; unfold nlen; lia|].
        intros kr. apply leads_alike. destruct Ht as [-> | ->].
        + change (nlen []) with 0. rewrite next_column_0. apply alike_refl.
        + apply (alike_spaces enc nest 1 (0x3A :: t)). apply starts_ascii; [reflexivity|reflexivity|discriminate|lia].
      - rewrite app_assoc in A. destruct (break_text_flat (w ++ tail) (0x3A :: t) m m') as [E1 E2]; [rewrite flat_app, Bw, Bt; reflexivity|exact A|].
        unfold nlen in *. rewrite app_length in E2. split; [exact E1|]. split; [lia|]. exists m'. split; [constructor|]. split; [exact E1|]. split; [lia|]. intros kr. apply leads_refl. }
    destruct E as (E1 & E2 & m2 & A2 & E3 & E4 & L2).
    destruct (chain_key enc nest f i _ _ _ _ _ _ C q is ks F0 I ltac:(congruence) E2) as (kr & L & Tk & Fe).
    exists m2, l, al, kr. split; [eapply leads_trans; [exact L|apply L2]|]. split; [eapply adv_trans; [exact A|exact A2]|]. split; [exact E3|]. split; [exact E4|].
    split; [eapply tidy_later; [|exact Tk]; lia|]. split; [exact Fe|]. intros k. rewrite Tl. exact (leaf_node g e flow _ x w ts k Lf).
  - assert (Nw : pw ++ sep pw ++ [0x5B; 0x5D] <> []) by (destruct pw; discriminate).
    split; [exact Nw|]. split.
    { destruct pw as [|y pw]; [apply starts_ascii; [reflexivity|reflexivity|discriminate|lia]|]. apply starts_app; [discriminate|]. exact (ptext_starts e a t _ pt P ltac:(discriminate)). }
    intros f i is q ks t0 m Fl Hf F0 At I Z.
    assert (F : fits is (f + 1)) by (unfold room, ScanStep.fits in *; cbn [height map list_max fold_right] in F0; lia).
    destruct (pair_key a t pw pt 0x5B TFlowSeqStart 0x5D TFlowSeqEnd f i is q ks ([] ++ 0x3A :: t0) m P Lp ltac:(left; auto) ltac:(left; auto) F At I) as (l & kr & L & A & Tk & Fe & Tl).
    eexists _, l, false, kr. split; [exact L|]. split; [exact A|]. split; [reflexivity|].
    split; [cbn [next_column m_index]; unfold nlen; rewrite !app_length; cbn [length]; destruct pw; cbn [sep length] in *; lia|].
    split; [exact Tk|]. split; [exact Fe|]. intros k. rewrite Tl. apply N_content with (a := a) (t := t); [exact (ptext_props e a t pw pt P)|]. apply C_flow_seq. constructor.
  - assert (Nw : pw ++ sep pw ++ [0x7B; 0x7D] <> []) by (destruct pw; discriminate).
    split; [exact Nw|]. split.
    { destruct pw as [|y pw]; [apply starts_ascii; [reflexivity|reflexivity|discriminate|lia]|]. apply starts_app; [discriminate|]. exact (ptext_starts e a t _ pt P ltac:(discriminate)). }
    intros f i is q ks t0 m Fl Hf F0 At I Z.
    assert (F : fits is (f + 1)) by (unfold room, ScanStep.fits in *; cbn [height map list_max fold_right] in F0; lia).
    destruct (pair_key a t pw pt 0x7B TFlowMapStart 0x7D TFlowMapEnd f i is q ks ([] ++ 0x3A :: t0) m P Lp ltac:(right; auto) ltac:(right; auto) F At I) as (l & kr & L & A & Tk & Fe & Tl).
    eexists _, l, false, kr. split; [exact L|]. split; [exact A|]. split; [reflexivity|].
    split; [cbn [next_column m_index]; unfold nlen; rewrite !app_length; cbn [length]; destruct pw; cbn [sep length] in *; lia|].
    split; [exact Tk|]. split; [exact Fe|]. intros k. rewrite Tl. apply N_content with (a := a) (t := t); [exact (ptext_props e a t pw pt P)|]. apply C_flow_map. constructor.
Qed.

(* ---- collections ---- *)
Definition flow_reads (x : tree) (w : list N) : Prop :=
  w <> [] /\ starts w /\
  forall f i is q al ks ws0 ws r m, f <> 0 -> room is f (height x) -> idle m ks -> white_text ws0 -> white_text ws -> flow_follow r ->
  exists m' l al' ks', leads (st (ws0 ++ w ++ ws ++ r) m f q is i al ks) (st r m' f (q ++ l) is i al' ks') /\ adv (ws0 ++ w ++ ws ++ r) m r m' /\ idle m' ks' /\ kept al ks ks' /\
    node common e Flow (map t_tok l) x.
Definition coll_reads (x : tree) (w : list N) : Prop :=
  w <> [] /\ starts w /\
  forall f i is q al ks rest m, room is f (height x) -> at_column f i m -> calm f i m al -> idle m ks ->
  exists m' l ks', leads (st (w ++ rest) m f q is i al ks) (st rest m' f (q ++ l) is i false ks') /\ adv (w ++ rest) m rest m' /\ idle m' ks' /\ kept al ks ks' /\
    (forall k, node common e k (map t_tok l) x).
(* inside a collection, up to its end *)
Definition inside_reads (h : nat) (any : bool) (w : list N) (P : list tok -> Prop) : Prop :=
  forall f i is q al k0 ks rest m, room is (f + 1) h -> (any = false -> al = true) -> idle m ks -> harmless m k0 ->
  exists m' l ks', leads (st (w ++ rest) m (f + 1) q is i al (k0 :: ks)) (st rest m' f (q ++ l) is i false ks') /\ adv (w ++ rest) m rest m' /\ idle m' ks' /\ fewer ks ks' /\ P (map t_tok l).
Definition seq_rest (xs : list tree) (ts : list tok) : Prop :=
  (xs = [] /\ ts = [TFlowSeqEnd]) \/ exists ts', ts = TFlowEntry :: ts' /\ flow_sequence common e ts' xs.
Definition map_rest (ps : list (tree * tree)) (ts : list tok) : Prop :=
  (ps = [] /\ ts = [TFlowMapEnd]) \/ exists ts', ts = TFlowEntry :: ts' /\ flow_mapping common e ts' ps.

Lemma room_fits is f h : room is f h -> fits is f.
Proof. unfold room, ScanStep.fits. lia. Qed.
Lemma room_less is f h h' : (h' <= h)%nat -> room is f h -> room is f h'.
Proof. unfold room. lia. Qed.
Lemma room_in is f h : room is f (S h) -> room is (f + 1) h.
Proof. unfold room. lia. Qed.
Lemma starts_gap ws t m f q is i al ks : f <> 0 -> starts t -> white_text ws -> exists m', adv (ws ++ t) m t m' /\ m_line m <= m_line m' /\ leads (st (ws ++ t) m f q is i al ks) (st t m' f q is i al ks).
Proof.
  intros F S W. destruct (alike_gap enc nest ws t m f q is i al ks S W) as (m' & A & _ & L & Al). exists m'. split; [exact A|]. split; [destruct (existsb is_break ws); lia|].
  replace (al || existsb is_break ws && negb (fl f)) with al in Al; [apply leads_alike; exact Al|].
  unfold fl. destruct (N.eqb_spec f 0); [contradiction|]. cbn. rewrite andb_false_r, orb_false_r. reflexivity.
Qed.
Lemma close_reads x tk f is : closing x tk -> fits is f -> forall i q al k0 ks rest m, idle m ks -> harmless m k0 ->
  exists ks', leads (st (x :: rest) m (f + 1) q is i al (k0 :: ks)) (st rest (next_column 1 m) f (q ++ [mark_token tk m]) is i false ks') /\ idle (next_column 1 m) ks' /\ fewer ks ks'.
Proof.
  intros C F i q al k0 ks rest m I H. assert (I0 : idle m (k0 :: ks)) by (split; [discriminate|constructor; [exact H|apply I]]).
  destruct (idle_stale m (k0 :: ks) I0) as (k & kr & Es & I2 & F2). exists kr. inversion F2; subst.
  assert (Nk : kr <> []) by (destruct I as [N _]; match goal with X : Forall2 _ ks kr |- _ => destruct X; [contradiction|discriminate] end).
  split; [apply (close_step enc nest x tk rest m f q is i al (k0 :: ks) k kr C F Nk Es); exact (harmless_soft _ _ _ I2)|]. split; [|assumption].
  split; [exact Nk|]. destruct I2 as [_ T]. inversion T; subst. eapply tidy_later; [|eassumption]. reflexivity.
Qed.
Lemma kept_split al k0 ks ks' : kept al (k0 :: ks) ks' -> exists k1 kr, ks' = k1 :: kr /\ fewer ks kr.
Proof. destruct ks' as [|k1 kr]; [contradiction|]. intros [_ F]. eauto. Qed.
Lemma idle_cons m k ks : idle m (k :: ks) -> ks <> [] -> idle m ks /\ harmless m k.
Proof. intros [_ T] N. inversion T; subst. split; [split; assumption|assumption]. Qed.
Lemma fewer_nonempty a b : fewer a b -> a <> [] -> b <> [].
Proof. destruct 1; [auto|discriminate]. Qed.
Lemma idle_in m k0 ks : idle m ks -> harmless m k0 -> idle m (k0 :: ks).
Proof. intros [_ T] H. split; [discriminate|constructor; assumption]. Qed.
Lemma dead_harmless m k : k_possible k = false -> harmless m k.
Proof. intros H P. congruence. Qed.
Lemma inner_pos ind : (-1 <= ind)%Z -> (-1 <= content_indent g ind)%Z.
Proof. unfold content_indent. destruct (Z.ltb_spec ind 0); lia. Qed.

Scheme ftext_m := Minimality for ftext Sort Prop
  with ctext_m := Minimality for ctext Sort Prop
  with fseq_m := Minimality for fseq Sort Prop
  with fseqt_m := Minimality for fseq_tail Sort Prop
  with fmap_m := Minimality for fmap Sort Prop
  with fmapt_m := Minimality for fmap_tail Sort Prop.
Combined Scheme flow_texts from ftext_m, ctext_m, fseq_m, fseqt_m, fmap_m, fmapt_m.

Lemma coll_in_flow x w : coll_reads x w -> flow_reads x w.
Proof.
  intros (Nw & Sw & H). split; [exact Nw|]. split; [exact Sw|]. intros f i is q al ks ws0 ws r m F R I W0 W Fo.
  destruct (starts_gap ws0 (w ++ ws ++ r) m f q is i al ks F (starts_app _ _ Nw Sw) W0) as (m1 & A1 & L1 & G1).
  destruct (H f i is q al ks (ws ++ r) m1 R ltac:(left; exact F) ltac:(left; exact F) (idle_later _ _ _ L1 I)) as (m2 & l & ks2 & G2 & A2 & I2 & K2 & N2).
  destruct (starts_gap ws r m2 f (q ++ l) is i false ks2 F (follow_starts r Fo) W) as (m3 & A3 & L3 & G3).
  exists m3, l, false, ks2. split; [eapply leads_trans; [exact G1|]; eapply leads_trans; [exact G2|exact G3]|]. split; [eapply adv_trans; [exact A1|]; eapply adv_trans; [exact A2|exact A3]|].
  split; [exact (idle_later _ _ _ L3 I2)|]. split; [exact K2|apply N2].
Qed.
Lemma leaf_in_flow ind x w ts : (-1 <= ind)%Z -> leaf g e true (width ind) x w ts -> flow_reads x w.
Proof.
  intros Hi Lf. destruct (width_pos ind Hi) as [W1 W2].
  destruct (leaf_chain enc nest g e B true (width ind) x w ts 1 (-1)%Z [] [0x2C] mark0 Lf eq_refl W1 (or_introl eq_refl)) as (Nw & Sw & _); [left; discriminate|apply flow_ends; [discriminate|constructor|left; reflexivity]|].
  split; [exact Nw|]. split; [exact Sw|]. intros f i is q al ks ws0 ws r m F R I W0 W Fo.
  assert (Fl : fl f = true) by (unfold fl; destruct (N.eqb_spec f 0); [contradiction|reflexivity]).
  destruct (starts_gap ws0 (w ++ ws ++ r) m f q is i al ks F (starts_app _ _ Nw Sw) W0) as (m1 & A1 & L1 & G1).
  destruct (leaf_chain enc nest g e B true (width ind) x w ts f i ws r m1 Lf Fl W1 (or_introl eq_refl) ltac:(left; exact F) (flow_ends f i ws r F W Fo)) as (_ & _ & t' & m2 & al2 & l & C & Tl & Te).
  destruct (chain_idle enc nest f i _ _ _ _ _ _ C q is al ks (room_fits _ _ _ R) (idle_later _ _ _ L1 I) ltac:(left; exact F)) as (ks2 & G2 & I2 & K2).
  pose proof (chain_adv _ _ _ _ _ _ _ _ _ _ C) as A2.
  assert (N2 : node common e Flow (map t_tok l) x) by (rewrite Tl; exact (leaf_node g e true _ x w ts Flow Lf)).
  destruct Te as [[-> ->]|[-> ->]].
  - destruct (starts_gap ws r m2 f (q ++ l) is i false ks2 F (follow_starts r Fo) W) as (m3 & A3 & L3 & G3).
    exists m3, l, false, ks2. split; [eapply leads_trans; [exact G1|]; eapply leads_trans; [exact G2|exact G3]|]. split; [eapply adv_trans; [exact A1|]; eapply adv_trans; [exact A2|exact A3]|].
    split; [exact (idle_later _ _ _ L3 I2)|]. split; [exact K2|exact N2].
  - exists m2, l, (existsb is_break ws), ks2. split; [eapply leads_trans; [exact G1|exact G2]|]. split; [eapply adv_trans; [exact A1|exact A2]|]. auto.
Qed.
Lemma coll_of (open : N) (topen : tok) a t pw pt h w (P : list tok -> Prop) x : ptext e a t pw pt -> opening open topen -> height x = S h -> inside_reads h false w P ->
  (forall k ts, P ts -> node common e k ((pt ++ [topen]) ++ ts) x) -> coll_reads x (pw ++ sep pw ++ open :: w).
Proof.
  intros Pp O Hh Hw Hn. split; [destruct pw; discriminate|]. split.
  { destruct pw as [|y pw]; [destruct O as [[-> _]|[-> _]]; (apply starts_ascii; [reflexivity|reflexivity|discriminate|lia])|]. apply starts_app; [discriminate|]. exact (ptext_starts e a t _ pt Pp ltac:(discriminate)). }
  intros f i is q al ks rest m R At Ca I. rewrite Hh in R.
  destruct (open_leads a t pw pt open topen f i q is al ks (w ++ rest) m Pp O (room_fits _ _ _ (room_in _ _ _ R)) At Ca I) as (m1 & l1 & ks1 & G1 & A1 & I1 & K1 & T1).
  destruct (Hw f i is (q ++ l1) true key0 ks1 rest m1 (room_in _ _ _ R) (fun _ => eq_refl) I1 (key0_harmless m1)) as (m2 & l2 & ks2 & G2 & A2 & I2 & F2 & P2).
  exists m2, (l1 ++ l2), ks2. rewrite <- !app_assoc. cbn [app]. split; [eapply leads_trans; [exact G1|rewrite app_assoc; exact G2]|]. split; [eapply adv_trans; [exact A1|exact A2]|]. split; [exact I2|].
  split; [eapply kept_trans; [exact K1|]; apply fewer_kept; [apply I1|exact F2]|]. intros k. rewrite map_app, T1. apply Hn. exact P2.
Qed.

Definition P_f (ind : Z) (x : tree) (w : list N) : Prop := (-1 <= ind)%Z -> flow_reads x w.
Definition P_c (ind : Z) (x : tree) (w : list N) : Prop := (-1 <= ind)%Z -> coll_reads x w.
Definition P_q (ind : Z) (xs : list tree) (w : list N) : Prop := (-1 <= ind)%Z -> inside_reads (heights xs) false w (fun ts => flow_sequence common e ts xs).
Definition P_qt (ind : Z) (xs : list tree) (w : list N) : Prop := (-1 <= ind)%Z -> (forall rest, flow_follow (w ++ rest)) /\ inside_reads (heights xs) true w (seq_rest xs).
Definition P_m (ind : Z) (ps : list (tree * tree)) (w : list N) : Prop := (-1 <= ind)%Z -> inside_reads (pheights ps) false w (fun ts => flow_mapping common e ts ps).
Definition P_mt (ind : Z) (ps : list (tree * tree)) (w : list N) : Prop := (-1 <= ind)%Z -> (forall rest, flow_follow (w ++ rest)) /\ inside_reads (pheights ps) true w (map_rest ps).

Lemma end_inside x tk ws any h (P : list tok -> Prop) : closing x tk -> white_text ws -> P [tk] -> inside_reads h any (ws ++ [x]) P.
Proof.
  intros C W Hp f i is q al k0 ks rest m R _ I H. rewrite <- app_assoc. cbn [app].
  assert (S : starts (x :: rest)) by (destruct C as [[-> _]|[-> _]]; (apply starts_ascii; [reflexivity|reflexivity|discriminate|lia])).
  assert (Bx : is_break x = false) by (destruct C as [[-> _]|[-> _]]; reflexivity).
  destruct (starts_gap ws (x :: rest) m (f + 1) q is i al (k0 :: ks) ltac:(lia) S W) as (m1 & A1 & L1 & G1).
  assert (F : fits is f) by (unfold room, ScanStep.fits in *; lia).
  destruct (close_reads x tk f is C F i q al k0 ks rest m1 (idle_later _ _ _ L1 I)) as (ks' & G2 & I2 & F2).
  { intros Pk. destruct (H Pk). split; [assumption|lia]. }
  exists (next_column 1 m1), [mark_token tk m1], ks'. split; [eapply leads_trans; [exact G1|exact G2]|]. split; [eapply adv_trans; [exact A1|apply adv_one; exact Bx]|].
  split; [exact I2|]. split; [exact F2|exact Hp].
Qed.
Lemma comma_inside w h (P Q : list tok -> Prop) : inside_reads h false w P -> (forall ts, P ts -> Q (TFlowEntry :: ts)) -> inside_reads h true (0x2C :: w) Q.
Proof.
  intros Hw PQ f i is q al k0 ks rest m R _ I H.
  destruct (idle_stale m (k0 :: ks) (idle_in _ _ _ I H)) as (k & kr & Es & I2 & F2). inversion F2; subst.
  pose proof (comma_step enc nest (w ++ rest) m (f + 1) q is i al (k0 :: ks) k kr ltac:(lia) (room_fits _ _ _ R) Es (harmless_soft _ _ _ I2)) as G1.
  assert (N : kr <> []) by (eapply fewer_nonempty; [eassumption|apply I]).
  destruct (Hw f i is (q ++ [mark_token TFlowEntry m]) true (kill k) kr rest (next_column 1 m) R (fun _ => eq_refl)) as (m2 & l2 & ks2 & G2 & A2 & I3 & F3 & P2).
  { destruct (idle_cons _ _ _ I2 N) as [X _]. eapply later_line; [|exact X]. reflexivity. }
  { apply dead_harmless. reflexivity. }
  exists m2, (mark_token TFlowEntry m :: l2), ks2. split; [eapply leads_trans; [exact G1|]; rewrite <- app_assoc in G2; exact G2|].
  split; [eapply adv_trans; [apply adv_one; reflexivity|exact A2]|]. split; [exact I3|]. split; [eapply fewer_trans; eauto|]. cbn [map]. apply PQ. exact P2.
Qed.
Lemma item_inside x ws w w' h h' (P Q : list tok -> Prop) : white_text ws -> flow_reads x w -> (forall rest, flow_follow (w' ++ rest)) -> (height x <= h)%nat -> (h' <= h)%nat -> inside_reads h' true w' P ->
  (forall ts ts', node common e Flow ts x -> P ts' -> Q (ts ++ ts')) -> inside_reads h false (ws ++ w ++ w') Q.
Proof.
  intros W (_ & _ & Hx) Fo Hh Hh' Hw' PQ f i is q al k0 ks rest m R _ I H.
  destruct (Hx (f + 1) i is q al (k0 :: ks) ws [] (w' ++ rest) m ltac:(lia) (room_less _ _ _ _ Hh R) (idle_in _ _ _ I H) W ltac:(constructor) (Fo rest)) as (m1 & l1 & al1 & ks1 & G1 & A1 & I1 & K1 & N1).
  destruct (kept_split _ _ _ _ K1) as (k1 & kr & -> & F1).
  destruct (idle_cons _ _ _ I1 (fewer_nonempty _ _ F1 (proj1 I))) as [I2 H2].
  destruct (Hw' f i is (q ++ l1) al1 k1 kr rest m1 (room_less _ _ _ _ Hh' R) ltac:(discriminate) I2 H2) as (m2 & l2 & ks2 & G2 & A2 & I3 & F3 & P3).
  cbn [app] in G1, A1. exists m2, (l1 ++ l2), ks2. rewrite <- !app_assoc in *.
  split; [eapply leads_trans; [exact G1|exact G2]|]. split; [eapply adv_trans; [exact A1|exact A2]|]. split; [exact I3|]. split; [eapply fewer_trans; eauto|]. rewrite map_app. apply PQ; assumption.
Qed.
(* the value of a pair and the rest *)
Lemma value_inside v vw w' h h' (P Q : list tok -> Prop) f i is q k ks rest m : flow_reads v vw -> (forall rest, flow_follow (w' ++ rest)) -> (height v <= h)%nat -> (h' <= h)%nat -> inside_reads h' true w' P ->
  (forall ts ts', node common e Flow ts v -> P ts' -> Q (ts ++ ts')) -> room is (f + 1) h -> idle m ks -> harmless m k ->
  exists m' l ks', leads (st (0x20 :: vw ++ w' ++ rest) m (f + 1) q is i false (k :: ks)) (st rest m' f (q ++ l) is i false ks') /\ adv (0x20 :: vw ++ w' ++ rest) m rest m' /\ idle m' ks' /\ fewer ks ks' /\ Q (map t_tok l).
Proof.
  intros (_ & _ & Hx) Fo Hh Hh' Hw' PQ R I H.
  destruct (Hx (f + 1) i is q false (k :: ks) [0x20] [] (w' ++ rest) m ltac:(lia) (room_less _ _ _ _ Hh R) (idle_in _ _ _ I H) ltac:(repeat constructor) ltac:(constructor) (Fo rest)) as (m1 & l1 & al1 & ks1 & G1 & A1 & I1 & K1 & N1).
  destruct (kept_split _ _ _ _ K1) as (k1 & kr & -> & F1).
  destruct (idle_cons _ _ _ I1 (fewer_nonempty _ _ F1 (proj1 I))) as [I2 H2].
  destruct (Hw' f i is (q ++ l1) al1 k1 kr rest m1 (room_less _ _ _ _ Hh' R) ltac:(discriminate) I2 H2) as (m2 & l2 & ks2 & G2 & A2 & I3 & F3 & P3).
  cbn [app] in G1, A1. exists m2, (l1 ++ l2), ks2. rewrite <- !app_assoc in *.
  split; [eapply leads_trans; [exact G1|exact G2]|]. split; [eapply adv_trans; [exact A1|exact A2]|]. split; [exact I3|]. split; [eapply fewer_trans; eauto|]. rewrite map_app. apply PQ; assumption.
Qed.
Lemma simple_inside ind k v ws kw tail vw w' h h' (P Q : list tok -> Prop) : (-1 <= ind)%Z -> white_text ws -> ktext g e true ind k kw tail -> flow_reads v vw -> (forall rest, flow_follow (w' ++ rest)) ->
  (height k <= h)%nat -> (height v <= h)%nat -> (h' <= h)%nat -> inside_reads h' true w' P ->
  (forall ts vs ts', node common e Flow ts k -> node common e Flow vs v -> P ts' -> Q (TKey :: ts ++ TValue :: vs ++ ts')) ->
  inside_reads h false (ws ++ kw ++ tail ++ 0x3A :: 0x20 :: vw ++ w') Q.
Proof.
  intros Hi W Hk Hv Fo Hh Hhv Hh' Hw' PQ f i is q al k0 ks rest m R Ha I H. rewrite (Ha eq_refl). clear al Ha.
  destruct (key_reads true ind k kw tail Hk Hi) as (Nk & Sk & Kr).
  rewrite <- !app_assoc. cbn [app]. rewrite <- !app_assoc.
  destruct (starts_gap ws (kw ++ tail ++ 0x3A :: 0x20 :: vw ++ w' ++ rest) m (f + 1) q is i true (k0 :: ks) ltac:(lia) (starts_app _ _ Nk Sk) W) as (m1 & A1 & L1 & G1).
  assert (Fl : fl (f + 1) = true) by (unfold fl; destruct (N.eqb_spec (f + 1) 0); [lia|reflexivity]).
  destruct (Kr (f + 1) i is q (k0 :: ks) (0x20 :: vw ++ w' ++ rest) m1 Fl (or_introl eq_refl) (room_less _ _ _ _ Hh R) ltac:(left; lia) (idle_later _ _ _ L1 (idle_in _ _ _ I H)) eq_refl)
    as (m2 & l & al2 & kr & G2 & A2 & E1 & E2 & T2 & F2 & N2).
  destruct (fresh_stale m2 (new_key (f + 1) q i m1) kr T2 (fresh_key m1 m2 (f + 1) q i E1 E2)) as (kr' & Es & T3 & F3).
  pose proof (simple_value_step enc nest (0x20 :: vw ++ w' ++ rest) m2 (f + 1) q l is i al2 _ (new_key (f + 1) q i m1) kr' (room_fits _ _ _ R) ltac:(left; lia) ltac:(left; lia) Es eq_refl eq_refl ltac:(left; lia)) as G3.
  assert (F4 : fewer ks kr') by (eapply fewer_trans; eauto).
  destruct (value_inside v vw w' h h' P (fun ts => exists a b, ts = a ++ b /\ node common e Flow a v /\ P b) f i is (q ++ zero_token TKey m1 :: l ++ [mark_token TValue m2]) (kill (new_key (f + 1) q i m1)) kr' rest (next_column 1 m2) Hv Fo Hhv Hh' Hw' (fun a b Ha Hb => ex_intro _ a (ex_intro _ b (conj eq_refl (conj Ha Hb)))) R) as (m4 & l4 & ks4 & G4 & A4 & I4 & F5 & a & b & Eab & Na & Pb).
  { split; [exact (fewer_nonempty _ _ F4 (proj1 I))|]. eapply tidy_later; [|exact T3]. reflexivity. }
  { apply dead_harmless. reflexivity. }
  exists m4, (zero_token TKey m1 :: l ++ mark_token TValue m2 :: l4), ks4.
  split; [|split; [|split; [exact I4|split; [eapply fewer_trans; eauto|]]]].
  - eapply leads_trans; [exact G1|]. eapply leads_trans; [exact G2|]. eapply leads_trans; [exact G3|]. rewrite <- !app_assoc in G4. cbn [app] in G4. rewrite <- !app_assoc in G4. cbn [app] in G4. exact G4.
  - eapply adv_trans; [exact A1|]. eapply adv_trans; [exact A2|]. eapply adv_trans; [apply adv_one; reflexivity|exact A4].
  - cbn [map]. rewrite map_app. cbn [map]. rewrite Eab. apply PQ; auto.
Qed.
Lemma explicit_inside k v ws kw ws' vw w' h h' (P Q : list tok -> Prop) : white_text ws -> flow_reads k kw -> white_text ws' -> flow_reads v vw -> (forall rest, flow_follow (w' ++ rest)) ->
  (height k <= h)%nat -> (height v <= h)%nat -> (h' <= h)%nat -> inside_reads h' true w' P ->
  (forall ts vs ts', node common e Flow ts k -> node common e Flow vs v -> P ts' -> Q (TKey :: ts ++ TValue :: vs ++ ts')) ->
  inside_reads h false (ws ++ 0x3F :: 0x20 :: kw ++ ws' ++ 0x3A :: 0x20 :: vw ++ w') Q.
Proof.
  intros W (_ & _ & Hk) W' Hv Fo Hh Hhv Hh' Hw' PQ f i is q al k0 ks rest m R _ I H.
  rewrite <- !app_assoc. cbn [app]. rewrite <- !app_assoc. cbn [app]. rewrite <- !app_assoc.
  set (t3 := 0x3A :: 0x20 :: vw ++ w' ++ rest).
  destruct (starts_gap ws (0x3F :: 0x20 :: kw ++ ws' ++ t3) m (f + 1) q is i al (k0 :: ks) ltac:(lia) ltac:(apply starts_ascii; [reflexivity|reflexivity|discriminate|lia]) W) as (m1 & A1 & L1 & G1).
  destruct (idle_stale m1 (k0 :: ks) (idle_later _ _ _ L1 (idle_in _ _ _ I H))) as (k1 & kr1 & Es1 & I1 & F1). inversion F1 as [|? ? ? ? _ F1']; subst.
  pose proof (flow_key_step enc nest (0x20 :: kw ++ ws' ++ t3) m1 (f + 1) q is i al (k0 :: ks) k1 kr1 ltac:(lia) (room_fits _ _ _ R) Es1 (harmless_soft _ _ _ I1)) as G2.
  pose proof (fewer_nonempty _ _ F1' (proj1 I)) as N1. destruct (idle_cons _ _ _ I1 N1) as [I1' _].
  assert (I2 : idle (next_column 1 m1) (kill k1 :: kr1)) by (apply idle_in; [eapply later_line; [|exact I1']; reflexivity|apply dead_harmless; reflexivity]).
  destruct (Hk (f + 1) i is (q ++ [mark_token TKey m1]) false (kill k1 :: kr1) [0x20] ws' t3 (next_column 1 m1) ltac:(lia) (room_less _ _ _ _ Hh R) I2 ltac:(repeat constructor) W') as (m3 & l & al3 & ks3 & G3 & A3 & I3 & K3 & Nk).
  { right; right; right. split; reflexivity. }
  destruct (idle_stale m3 ks3 I3) as (k4 & kr4 & Es4 & I4 & F4).
  pose proof (fewer_trans _ _ _ (kept_false _ _ K3) F4) as F5. inversion F5 as [|? ? ? ? D5 F5']; subst. specialize (D5 eq_refl).
  pose proof (flow_value_step enc nest (0x20 :: vw ++ w' ++ rest) m3 (f + 1) _ is i al3 ks3 k4 kr4 ltac:(lia) (room_fits _ _ _ R) Es4 D5 : leads (st t3 m3 (f + 1) ((q ++ [mark_token TKey m1]) ++ l) is i al3 ks3) _) as G4.
  destruct (idle_cons _ _ _ I4 (fewer_nonempty _ _ F5' N1)) as [I4' _].
  destruct (value_inside v vw w' h h' P (fun ts => exists a b, ts = a ++ b /\ node common e Flow a v /\ P b) f i is (((q ++ [mark_token TKey m1]) ++ l) ++ [mark_token TValue m3]) k4 kr4 rest (next_column 1 m3) Hv Fo Hhv Hh' Hw' (fun a b Ha Hb => ex_intro _ a (ex_intro _ b (conj eq_refl (conj Ha Hb)))) R) as (m6 & l6 & ks6 & G6 & A6 & I6 & F6 & a & b & Eab & Na & Pb).
  { eapply later_line; [|exact I4']. reflexivity. }
  { apply dead_harmless. exact D5. }
  exists m6, (mark_token TKey m1 :: l ++ mark_token TValue m3 :: l6), ks6.
  split; [|split; [|split; [exact I6|split; [eapply fewer_trans; [|exact F6]; eapply fewer_trans; eauto|]]]].
  - eapply leads_trans; [exact G1|]. eapply leads_trans; [exact G2|]. eapply leads_trans; [exact G3|]. eapply leads_trans; [exact G4|]. repeat (rewrite <- !app_assoc in G6; cbn [app] in G6). repeat (rewrite <- !app_assoc; cbn [app]). exact G6.
  - eapply adv_trans; [exact A1|]. eapply adv_trans; [apply adv_one; reflexivity|]. eapply adv_trans; [exact A3|]. eapply adv_trans; [apply adv_one; reflexivity|exact A6].
  - cbn [map]. rewrite map_app. cbn [map]. rewrite Eab. apply PQ; auto.
Qed.

Theorem flow_reading :
  (forall ind x w, ftext g e ind x w -> P_f ind x w) /\ (forall ind x w, ctext g e ind x w -> P_c ind x w) /\
  (forall ind xs w, fseq g e ind xs w -> P_q ind xs w) /\ (forall ind xs w, fseq_tail g e ind xs w -> P_qt ind xs w) /\
  (forall ind ps w, fmap g e ind ps w -> P_m ind ps w) /\ (forall ind ps w, fmap_tail g e ind ps w -> P_mt ind ps w).
Proof.
  apply flow_texts.
  - intros ind x w ts L Hi. exact (leaf_in_flow ind x w ts Hi L).
  - intros ind x w _ IH Hi. apply coll_in_flow. exact (IH Hi).
  - intros ind a t pw pt xs w P _ IH Hi.
    apply (coll_of 0x5B TFlowSeqStart a t pw pt (heights xs) w _ (Sequence a t (implicit_of t) FlowColl xs) P ltac:(left; auto) eq_refl (IH (inner_pos ind Hi))).
    intros k ts H. rewrite <- app_assoc. apply N_content with (a := a) (t := t); [exact (ptext_props e a t pw pt P)|]. apply C_flow_seq. exact H.
  - intros ind a t pw pt ps w P _ IH Hi.
    apply (coll_of 0x7B TFlowMapStart a t pw pt (pheights ps) w _ (Mapping a t (implicit_of t) FlowColl ps) P ltac:(right; auto) eq_refl (IH (inner_pos ind Hi))).
    intros k ts H. rewrite <- app_assoc. apply N_content with (a := a) (t := t); [exact (ptext_props e a t pw pt P)|]. apply C_flow_map. exact H.
  - intros ind ws W Hi. apply (end_inside 0x5D TFlowSeqEnd); [left; auto|exact W|constructor].
  - intros ind x xs ws w w' W _ IHx _ IHw Hi. destruct (IHw Hi) as [Fo Hw].
    apply (item_inside x ws w w' (heights (x :: xs)) (heights xs) (seq_rest xs)); [exact W|exact (IHx Hi)|exact Fo|rewrite heights_cons; lia|rewrite heights_cons; lia|exact Hw|].
    intros ts ts' Hn [[-> ->]|(ts2 & -> & Hs)]; [apply FS_last|apply FS_entry; [|exact Hs]]; apply FSE_node; exact Hn.
  - intros ind Hi. split; [intros rest; right; left; reflexivity|]. apply (end_inside 0x5D TFlowSeqEnd []); [left; auto|constructor|left; auto].
  - intros ind xs w _ IH Hi. split; [intros rest; left; reflexivity|]. apply (comma_inside w _ _ _ (IH Hi)). intros ts H. right. eauto.
  - intros ind ws W Hi. apply (end_inside 0x7D TFlowMapEnd); [right; auto|exact W|constructor].
  - intros ind k v ps ws kw tail vw w' W Hk _ IHv _ IHw Hi. destruct (IHw Hi) as [Fo Hw].
    apply (simple_inside ind k v ws kw tail vw w' (pheights ((k, v) :: ps)) (pheights ps) (map_rest ps)); [exact Hi|exact W|exact Hk|exact (IHv Hi)|exact Fo|rewrite pheights_cons; lia|rewrite pheights_cons; lia|rewrite pheights_cons; lia|exact Hw|].
    intros ts vs ts' Hn Hv [[-> ->]|(ts2 & -> & Hs)].
    + replace (TKey :: ts ++ TValue :: vs ++ [TFlowMapEnd]) with ((TKey :: ts ++ TValue :: vs) ++ [TFlowMapEnd]) by (cbn [app]; rewrite <- app_assoc; reflexivity). apply FM_last. apply FME_pair; [apply O_some; exact Hn|apply V_some, O_some; exact Hv].
    + replace (TKey :: ts ++ TValue :: vs ++ TFlowEntry :: ts2) with ((TKey :: ts ++ TValue :: vs) ++ TFlowEntry :: ts2) by (cbn [app]; rewrite <- app_assoc; reflexivity). apply FM_entry; [|exact Hs]. apply FME_pair; [apply O_some; exact Hn|apply V_some, O_some; exact Hv].
  - intros ind k v ps ws kw ws' vw w' W _ IHk W' _ IHv _ IHw Hi. destruct (IHw Hi) as [Fo Hw].
    apply (explicit_inside k v ws kw ws' vw w' (pheights ((k, v) :: ps)) (pheights ps) (map_rest ps)); [exact W|exact (IHk Hi)|exact W'|exact (IHv Hi)|exact Fo|rewrite pheights_cons; lia|rewrite pheights_cons; lia|rewrite pheights_cons; lia|exact Hw|].
    intros ts vs ts' Hn Hv [[-> ->]|(ts2 & -> & Hs)].
    + replace (TKey :: ts ++ TValue :: vs ++ [TFlowMapEnd]) with ((TKey :: ts ++ TValue :: vs) ++ [TFlowMapEnd]) by (cbn [app]; rewrite <- app_assoc; reflexivity). apply FM_last. apply FME_pair; [apply O_some; exact Hn|apply V_some, O_some; exact Hv].
    + replace (TKey :: ts ++ TValue :: vs ++ TFlowEntry :: ts2) with ((TKey :: ts ++ TValue :: vs) ++ TFlowEntry :: ts2) by (cbn [app]; rewrite <- app_assoc; reflexivity). apply FM_entry; [|exact Hs]. apply FME_pair; [apply O_some; exact Hn|apply V_some, O_some; exact Hv].
  - intros ind Hi. split; [intros rest; right; right; left; reflexivity|]. apply (end_inside 0x7D TFlowMapEnd []); [right; auto|constructor|left; auto].
  - intros ind ps w _ IH Hi. split; [intros rest; left; reflexivity|]. apply (comma_inside w _ _ _ (IH Hi)). intros ts H. right. eauto.
Qed.
Lemma coll_read ind x w : ctext g e ind x w -> (-1 <= ind)%Z -> coll_reads x w.
Proof. intros H Hi. exact (proj1 (proj2 flow_reading) ind x w H Hi). Qed.
End Flow.
