(* Reading the written texts of scalars, aliases, anchors and tags. *)
From Verif Require Import Base ReaderModel Utf8Spec CharSpec Types CursorModel ScanModel ScannerModel CursorProofs ScanProofs ScanQuoted ScannerInv PlanFree FullRun WriterModel WriterSpec PenModel PenText TreeSpec GrammarSpec RoundSpec EagerScan TagRun DoubleTrip SingleTrip PlainTrip ScanStep TextGrammar.

(* ---- where scanning ends ---- *)
Lemma hold_fc n t m : hold n t m (fc t m).
Proof. unfold hold, fc. cbn. repeat split; lia. Qed.
Lemma flow_scalar_adv (single : bool) t m tk t' e : nth 0 t 0 <> 0 -> is_break (nth 0 t 0) = false ->
  scan_flow_scalar single (fc t m) = COk tk (fc t' e) -> adv t m t' e.
Proof.
  intros Z B E. pose proof (p_scan_flow_scalar single t m (fc t m) (fun _ c' => adv t m (c_text c') (c_mark c')) (hold_fc 1 t m) Z B) as W.
  unfold wp in W. rewrite E in W. apply W. intros tk0 t0 m0 c0 [(H1 & H2 & _) A] _ _ _. rewrite H1, H2. exact A.
Qed.
Lemma block_scalar_adv pindent (literal : bool) t m tk t' e : nth 0 t 0 <> 0 -> is_break (nth 0 t 0) = false ->
  scan_block_scalar pindent literal (fc t m) = COk tk (fc t' e) -> adv t m t' e.
Proof.
  intros Z B E. pose proof (p_scan_block_scalar pindent literal t m (fc t m) (fun _ c' => adv t m (c_text c') (c_mark c')) (hold_fc 1 t m) Z B) as W.
  unfold wp in W. rewrite E in W. apply W. intros tk0 t0 m0 c0 [(H1 & H2 & _) A] _ _ _. rewrite H1, H2. exact A.
Qed.
Lemma anchor_adv a t m tk t' e : nth 0 t 0 <> 0 -> is_break (nth 0 t 0) = false -> scan_anchor a (fc t m) = COk tk (fc t' e) -> adv t m t' e.
Proof.
  intros Z B E. pose proof (p_scan_anchor a t m (fc t m) (fun _ c' => adv t m (c_text c') (c_mark c')) (hold_fc 1 t m) Z B) as W.
  unfold wp in W. rewrite E in W. apply W. intros tk0 t0 m0 c0 [(H1 & H2 & _) A] _ _ _. rewrite H1, H2. exact A.
Qed.
Lemma tag_adv flow t m tk t' e : nth 0 t 0 = 0x21 -> scan_tag flow (fc t m) = COk tk (fc t' e) -> adv t m t' e.
Proof.
  intros Z E. pose proof (p_scan_tag flow t m (fc t m) (fun _ c' => adv t m (c_text c') (c_mark c')) (hold_fc 1 t m) Z) as W.
  unfold wp in W. rewrite E in W. apply W. intros tk0 t0 m0 c0 [(H1 & H2 & _) A] _ _ _. rewrite H1, H2. exact A.
Qed.

(* ---- several tokens that may be (part of) a simple key ---- *)
Section Chain.
Variables (enc : encoding) (nest : Z).
Notation st := (st enc nest). Notation leads := leads. Notation fits := (fits nest). Notation tok_step := (tok_step enc nest).
Inductive chain (f : N) (i : Z) : list N -> mark -> list N -> mark -> bool -> list token -> Prop :=
| ch_one t m t' m' al tk : tok_step f i t m al t' m' tk -> adv t m t' m' -> chain f i t m t' m' al [tk]
| ch_more t m k t1 m1 tk t' m' al l : tok_step f i t m false (repeat 0x20 k ++ t1) m1 tk -> adv t m (repeat 0x20 k ++ t1) m1 -> starts t1 ->
    chain f i t1 (next_column (N.of_nat k) m1) t' m' al l -> chain f i t m t' m' al (tk :: l).
Lemma chain_adv f i t m t' m' al l : chain f i t m t' m' al l -> adv t m t' m'.
Proof. induction 1; [assumption|]. eapply adv_trans; [eassumption|]. eapply adv_trans; [apply adv_spaces|eassumption]. Qed.
Lemma chain_app f i t m k t1 m1 l : forall t' m' al l' a, chain f i t m a m1 false l -> a = repeat 0x20 k ++ t1 -> starts t1 -> chain f i t1 (next_column (N.of_nat k) m1) t' m' al l' ->
  chain f i t m t' m' al (l ++ l').
Proof.
  intros t' m' al l' a C. remember false as b. induction C as [t m t0 m0 al0 tk S A|t m k' t2 m2 tk t0 m0 al0 l S A St C IH]; intros -> S1 C'; subst al0.
  - cbn [app]. eapply ch_more; eauto.
  - cbn [app]. eapply ch_more; eauto.
Qed.

Lemma chain_idle_from f i t m t' m' al2 l : chain f i t m t' m' al2 l -> forall q is (al : bool) ks m0, m_line m0 <= m_line m -> fits is f -> idle m0 ks -> calm f i m al ->
  exists ks', leads (st t m f q is i al ks) (st t' m' f (q ++ l) is i al2 ks') /\ idle (if al then m else m0) ks' /\ kept al ks ks'.
Proof.
  induction 1 as [t m t' m' al2 tk S A|t m k t1 m1 tk t' m' al2 l S A St C IH]; intros q is al ks m0 L0 F I Ca.
  - exact (idle_token enc nest f i t m al2 t' m' tk q is al ks m0 S L0 F I Ca).
  - destruct (idle_token enc nest f i t m false _ m1 tk q is al ks m0 S L0 F I Ca) as (ks1 & L1 & I1 & N1).
    pose proof (adv_line_le _ _ _ _ A).
    destruct (IH (q ++ [tk]) is false ks1 (if al then m else m0)) as (ks2 & L2 & I2 & N2).
    + destruct al; cbn [next_column m_line]; lia.
    + exact F.
    + exact I1.
    + right. auto.
    + exists ks2. rewrite <- app_assoc in L2. cbn [app] in L2. split; [|split; [exact I2|eapply kept_trans; eauto]].
      eapply leads_trans; [exact L1|]. eapply leads_trans; [|exact L2]. apply leads_alike. apply alike_spaces. exact St.
Qed.
Lemma chain_idle f i t m t' m' al2 l : chain f i t m t' m' al2 l -> forall q is al ks, fits is f -> idle m ks -> calm f i m al ->
  exists ks', leads (st t m f q is i al ks) (st t' m' f (q ++ l) is i al2 ks') /\ idle m' ks' /\ kept al ks ks'.
Proof.
  intros C q is al ks F I Ca. destruct (chain_idle_from f i t m t' m' al2 l C q is al ks m ltac:(lia) F I Ca) as (ks' & L & I' & K).
  exists ks'. split; [exact L|]. split; [|exact K]. pose proof (adv_line_le _ _ _ _ (chain_adv _ _ _ _ _ _ _ _ C)). eapply idle_later; [|exact I']. destruct al; lia.
Qed.
Lemma chain_keyed f i t m t' m' al2 l : chain f i t m t' m' al2 l -> forall q is K kr, fits is f -> tidy m kr ->
  m_line (k_mark K) = m_line m' -> m_line m = m_line m' -> m_index m' <= m_index (k_mark K) + 1024 ->
  exists kr', leads (st t m f q is i false (K :: kr)) (st t' m' f (q ++ l) is i al2 (K :: kr')) /\ tidy m' kr' /\ fewer kr kr'.
Proof.
  induction 1 as [t m t' m' al2 tk S A|t m k t1 m1 tk t' m' al2 l S A St C IH]; intros q is K kr F I E1 E2 E3.
  - apply (keyed_token enc nest f i t m al2 t' m' tk q is K kr S (adv_line_le _ _ _ _ A) F I).
    pose proof (adv_index _ _ _ _ A). pose proof (adv_len _ _ _ _ A). unfold too_old, nlen in *. apply orb_false_iff. split; [apply N.ltb_ge|apply N.ltb_ge]; lia.
  - pose proof (chain_adv _ _ _ _ _ _ _ _ C) as A2.
    pose proof (adv_index _ _ _ _ A). pose proof (adv_len _ _ _ _ A). pose proof (adv_index _ _ _ _ A2). pose proof (adv_len _ _ _ _ A2).
    pose proof (adv_line_le _ _ _ _ A). pose proof (adv_line_le _ _ _ _ A2). cbn [next_column m_line m_index] in *.
    destruct (keyed_token enc nest f i t m false _ m1 tk q is K kr S ltac:(assumption) F I) as (kr1 & L1 & I1 & N1).
    { unfold too_old, nlen in *. apply orb_false_iff. split; [apply N.ltb_ge|apply N.ltb_ge]; lia. }
    destruct (IH (q ++ [tk]) is K kr1 F) as (kr2 & L2 & I2 & N2); [eapply tidy_later; [|exact I1]; reflexivity|exact E1|cbn [next_column m_line]; lia|exact E3|].
    exists kr2. rewrite <- app_assoc in L2. cbn [app] in L2. split; [|split; [exact I2|eapply fewer_trans; eauto]].
    eapply leads_trans; [exact L1|]. eapply leads_trans; [|exact L2]. apply leads_alike. apply alike_spaces. exact St.
Qed.
Lemma chain_key f i t m t' m' al2 l : chain f i t m t' m' al2 l -> forall q is ks, fits is f -> idle m ks ->
  m_line m = m_line m' -> m_index m' <= m_index m + 1024 ->
  exists kr', leads (st t m f q is i true ks) (st t' m' f (q ++ l) is i al2 (new_key f q i m :: kr')) /\ tidy m' kr' /\ fewer (tl ks) kr'.
Proof.
  destruct 1 as [t m t' m' al2 tk S A|t m k t1 m1 tk t' m' al2 l S A St C]; intros q is ks F I E1 E2.
  - exact (key_token enc nest f i t m al2 t' m' tk q is ks S (adv_line_le _ _ _ _ A) F I).
  - destruct (key_token enc nest f i t m false _ m1 tk q is ks S (adv_line_le _ _ _ _ A) F I) as (kr1 & L1 & I1 & N1).
    pose proof (chain_adv _ _ _ _ _ _ _ _ C) as A2. pose proof (adv_line_le _ _ _ _ A). pose proof (adv_line_le _ _ _ _ A2). cbn [next_column m_line] in *.
    destruct (chain_keyed f i _ _ _ _ _ _ C (q ++ [tk]) is (new_key f q i m) kr1 F) as (kr2 & L2 & I2 & N2); [eapply tidy_later; [|exact I1]; reflexivity|exact E1|cbn [next_column m_line]; lia|exact E2|].
    exists kr2. rewrite <- app_assoc in L2. cbn [app] in L2. split; [|split; [exact I2|eapply fewer_trans; eauto]].
    eapply leads_trans; [exact L1|]. eapply leads_trans; [|exact L2]. apply leads_alike. apply alike_spaces. exact St.
Qed.

(* ---- what follows a leaf ---- *)
Definition ends (f : N) (i : Z) (ws r : list N) : Prop :=
  white_text ws /\ starts r /\ plain_ends (fl f) i ws r /\ nth 0 (ws ++ r) 0 <> 0x27 /\ anchor_end (nth 0 (ws ++ r) 0) = true.

Section Leaf.
Variables (g : cfg) (e : env).
Hypothesis B : g_break g <> AnyBreak.

Lemma starts_head x t : starts (x :: t) <-> is_blank x = false /\ is_break x = false /\ x <> 0x23 /\ x <> 0xFEFF.
Proof. reflexivity. Qed.
Lemma starts_app a b : a <> [] -> starts a -> starts (a ++ b).
Proof. destruct a; [contradiction|]. intros _ H. exact H. Qed.
Lemma starts_ascii x t : is_blank x = false -> is_break x = false -> x <> 0x23 -> x < 0x80 -> starts (x :: t).
Proof. intros H1 H2 H3 H4. split; [exact H1|]. split; [exact H2|]. split; [exact H3|]. cbn [nth]. lia. Qed.

Lemma stext_step flow n s style w f i ws r m : stext g flow n s style w -> fl f = flow -> (1 <= n)%nat -> flow = true \/ (i < Z.of_nat n)%Z -> at_column f i m -> ends f i ws r ->
  w <> [] /\ starts w /\
  exists e t' m' al, tok_step f i (w ++ ws ++ r) m al t' m' (mkToken (TScalar (utf8 s) style) m e false) /\ adv (w ++ ws ++ r) m t' m' /\
    ((t' = ws ++ r /\ al = false) \/ (t' = r /\ al = existsb is_break ws)).
Proof.
  intros D Fl N1 Hi At (W & Sr & Pe & Sq & _). destruct D as [s w D|s w D|s w Ps [Ls Lp] D].
  - split; [discriminate|]. split; [apply starts_ascii; [reflexivity|reflexivity|discriminate|lia]|].
    destruct (double_scanned g s w m (ws ++ r) B D) as (e0 & E).
    cbn [app]. rewrite <- app_assoc. cbn [app].
    exists e0, (ws ++ r), e0, false. split; [exact (tok_double enc nest f i _ m _ e0 _ At E)|]. split; [refine (flow_scalar_adv false _ m _ _ e0 _ _ E); [discriminate|reflexivity]|auto].
  - split; [discriminate|]. split; [apply starts_ascii; [reflexivity|reflexivity|discriminate|lia]|].
    destruct (single_scanned g s w m (ws ++ r) B Sq D) as (e0 & E).
    cbn [app]. rewrite <- app_assoc. cbn [app].
    exists e0, (ws ++ r), e0, false. split; [exact (tok_single enc nest f i _ m _ e0 _ At E)|]. split; [refine (flow_scalar_adv true _ m _ _ e0 _ _ E); [discriminate|reflexivity]|auto].
  - destruct (plain_scanned g n (fl f) i s w ws r m B N1) as (e0 & m' & A1 & A2 & E); [|rewrite Fl; exact Ps|exact D|exact W|exact Pe|].
    { rewrite Fl. destruct flow; [auto|]. right. destruct Hi as [Hi|Hi]; [discriminate|]. split; [exact Hi|]. destruct At as [At|At]; [|exact At]. unfold fl in Fl. destruct (N.eqb_spec f 0); [contradiction|discriminate]. }
    destruct Ps as (Ns & Ok & Sp & La & Di & Bk). destruct s as [|c s]; [contradiction|]. cbn [next nth] in Sp. cbn [next nth tl] in *.
    assert (D1 : exists w1, w = c :: w1 /\ pq g n InWord s w1) by (inversion D; subst; [eauto|discriminate|discriminate]).
    destruct D1 as (w1 & -> & D1).
    split; [discriminate|]. split; [exact Ls|].
    exists e0, r, m', (existsb is_break ws). split; [|split; [eapply adv_trans; [exact A1|exact A2]|auto]].
    cbn [app] in E |- *. apply tok_plain; [exact Ls| | |exact At|exact E].
    + rewrite Fl. destruct Lp as [L|[(-> & L)|(-> & X & L)]]; [left; exact L|right; left; split; [reflexivity|]|right; right; split; [reflexivity|]; split; [exact X|]].
      * destruct s as [|c2 s]; [discriminate|]. cbn [nth] in L. inversion D1; subst; [exact L|discriminate|discriminate].
      * destruct s as [|c2 s]; [discriminate|]. cbn [nth] in L. inversion D1; subst; [exact L|discriminate|discriminate].
    + unfold at_document_indicator, is_indicator. destruct (m_column m =? 0); [|reflexivity]. cbn [andb].
      change (c :: w1 ++ ws ++ r) with ((c :: w1) ++ ws ++ r).
      rewrite !(pq_no_marker g n _ _ (ws ++ r) _ B D Di); [reflexivity|apply (ends_not_marker (fl f) i); auto|auto|apply (ends_not_marker (fl f) i); auto|auto].
Qed.

Lemma tag_head_text h x : tag_fits h x -> exists w, tag_text h x = 0x21 :: w.
Proof. destruct h as [h|]; cbn [tag_text tag_fits]; [intros [_ [(name & -> & _)| ->]]|intros _]; cbn [app]; eauto. Qed.
Lemma blankz_anchor_end x : is_blankz x = true -> anchor_end x = true.
Proof. intros H. unfold anchor_end. rewrite H. reflexivity. Qed.
Lemma ptext_starts a t pw pt : ptext e a t pw pt -> pw <> [] -> starts pw.
Proof.
  intros P N. destruct P as [|a _|w h s t [h0 x h1 s1 t1 H1 _ _]|a w h s t _ _]; [contradiction| | |]; try (apply starts_ascii; [reflexivity|reflexivity|discriminate|lia]).
  destruct (tag_head_text _ _ H1) as (w1 & ->). apply starts_ascii; [reflexivity|reflexivity|discriminate|lia].
Qed.
Lemma at_later f i m k : at_column f i m -> at_column f i (next_column k m).
Proof. intros [H|H]; [left; exact H|right; cbn [next_column m_column]; lia]. Qed.
Lemma anchor_step f i a rest m : anchor_ok a -> anchor_end (nth 0 rest 0) = true -> at_column f i m ->
  exists tk, tok_step f i (0x26 :: a ++ rest) m false rest (next_column (nlen (0x26 :: a)) m) tk /\ adv (0x26 :: a ++ rest) m rest (next_column (nlen (0x26 :: a)) m) /\ t_tok tk = TAnchor a.
Proof.
  intros [Na Fa] En At. pose proof (scan_anchor_run true 0x26 a rest m Na Fa En) as E. cbn [app] in E.
  eexists. split; [exact (tok_anchor enc nest f i _ m _ _ _ At E)|]. split; [refine (anchor_adv true _ m _ _ _ _ _ E); [discriminate|reflexivity]|reflexivity].
Qed.
Lemma tag_step f i w h s t rest m : tag_is e w h s t -> tag_follow (fl f) rest -> at_column f i m ->
  exists tk, tok_step f i (w ++ rest) m false rest (next_column (nlen w) m) tk /\ adv (w ++ rest) m rest (next_column (nlen w) m) /\ t_tok tk = TTag h s.
Proof.
  intros [h0 x hd s0 t0 Fi Tk R] Fo At. pose proof (scan_tag_run (fl f) h0 x rest m Fi Fo) as E. rewrite Tk in E.
  assert (Hd : nth 0 (tag_text h0 x ++ rest) 0 = 0x21) by (destruct (tag_head_text _ _ Fi) as (w1 & ->); reflexivity).
  pose proof (tag_adv _ _ m _ _ _ Hd E) as A.
  exists (mkToken (TTag hd s0) m (next_column (nlen (tag_text h0 x)) m) false). split; [|split; [exact A|reflexivity]].
  destruct (tag_head_text _ _ Fi) as (w1 & Ew). rewrite Ew in *. cbn [app] in *. exact (tok_tag enc nest f i _ m _ _ _ At E).
Qed.

Lemma props_chain a t pw pt f i rest m : ptext e a t pw pt -> pw <> [] -> is_blankz (nth 0 rest 0) = true -> at_column f i m ->
  exists l, chain f i (pw ++ rest) m rest (next_column (nlen pw) m) false l /\ map t_tok l = pt.
Proof.
  intros P N Z At. destruct P as [|a Ha|w h s t Ht|a w h s t Ha Ht]; [contradiction| | |].
  - destruct (anchor_step f i a rest m Ha (blankz_anchor_end _ Z) At) as (tk & S & A & T). exists [tk]. split; [apply ch_one; assumption|cbn; congruence].
  - destruct (tag_step f i w h s t rest m Ht (or_introl Z) At) as (tk & S & A & T). exists [tk]. split; [apply ch_one; assumption|cbn; congruence].
  - destruct (anchor_step f i a (0x20 :: w ++ rest) m Ha eq_refl At) as (tk & S & A & T).
    destruct (tag_step f i w h s t rest (next_column 1 (next_column (nlen (0x26 :: a)) m)) Ht (or_introl Z) (at_later _ _ _ _ (at_later _ _ _ _ At))) as (tk2 & S2 & A2 & T2).
    exists [tk; tk2]. split; [|cbn; congruence].
    change ((0x26 :: a ++ 0x20 :: w) ++ rest) with (0x26 :: (a ++ 0x20 :: w) ++ rest). rewrite <- app_assoc. cbn [app].
    apply (ch_more f i _ m 1 (w ++ rest) (next_column (nlen (0x26 :: a)) m) tk rest _ false [tk2]); [exact S|exact A| |].
    + destruct Ht as [h0 x hd s0 t0 Fi _ _]. destruct (tag_head_text _ _ Fi) as (w1 & ->). apply starts_ascii; [reflexivity|reflexivity|discriminate|lia].
    + rewrite !next_column_add in S2, A2. rewrite next_column_add.
      replace (nlen (0x26 :: a ++ 0x20 :: w)) with (nlen (0x26 :: a) + 1 + nlen w) by (unfold nlen; cbn [length]; rewrite app_length; cbn [length]; lia).
      apply ch_one; [exact S2|exact A2].
Qed.
(* anchor and tag before something else *)
Lemma props_then a t pw pt f i t1 m : ptext e a t pw pt -> starts t1 -> at_column f i m ->
  forall t' m' al l, chain f i t1 (next_column (nlen (pw ++ sep pw)) m) t' m' al l ->
  exists l0, chain f i (pw ++ sep pw ++ t1) m t' m' al (l0 ++ l) /\ map t_tok l0 = pt.
Proof.
  intros P St At t' m' al l C. destruct pw as [|x pw].
  - exists []. split; [|inversion P; subst; [reflexivity|]]. 1: cbn [app sep] in *; rewrite next_column_0 in C; exact C.
    match goal with H : tag_is _ [] _ _ _ |- _ => inversion H as [h0 x0 ? ? ? Fi] end. destruct (tag_head_text _ _ Fi) as (w1 & Ew). congruence.
  - destruct (props_chain a t (x :: pw) pt f i (0x20 :: t1) m P ltac:(discriminate) eq_refl At) as (l0 & C0 & T0).
    exists l0. split; [|exact T0]. eapply (chain_app f i _ m 1 t1 _ l0 t' m' al l _ C0 eq_refl St).
    rewrite next_column_add. replace (nlen (x :: pw) + N.of_nat 1) with (nlen ((x :: pw) ++ sep (x :: pw))) by (unfold nlen; rewrite app_length; cbn [sep length]; lia). exact C.
Qed.

Lemma leaf_chain flow n x w ts f i ws r m : leaf g e flow n x w ts -> fl f = flow -> (1 <= n)%nat -> flow = true \/ (i < Z.of_nat n)%Z -> at_column f i m -> ends f i ws r ->
  w <> [] /\ starts w /\
  exists t' m' al l, chain f i (w ++ ws ++ r) m t' m' al l /\ map t_tok l = ts /\
    ((t' = ws ++ r /\ al = false) \/ (t' = r /\ al = existsb is_break ws)).
Proof.
  intros L Fl N1 Hi At En. destruct L as [a Ha|a t pw pt s style w Hp D].
  - split; [discriminate|]. split; [apply starts_ascii; [reflexivity|reflexivity|discriminate|lia]|]. destruct Ha as [Na Fa].
    pose proof (scan_anchor_run false 0x2A a (ws ++ r) m Na Fa (proj2 (proj2 (proj2 (proj2 En))))) as E. cbn [app] in E.
    eexists _, _, _, _. split; [eapply ch_one; [exact (tok_alias enc nest f i _ m _ _ _ At E)|refine (anchor_adv false _ m _ _ _ _ _ E); [discriminate|reflexivity]]|]. split; [reflexivity|auto].
  - set (m1 := next_column (nlen (pw ++ sep pw)) m).
    destruct (stext_step flow n s style w f i ws r m1 D Fl N1 Hi (at_later _ _ _ _ At) En) as (Nw & Sw & e0 & t' & m' & al & S & A & T).
    assert (Np : pw ++ sep pw ++ w <> []) by (destruct pw; [exact Nw|discriminate]).
    split; [exact Np|]. split.
    { destruct pw as [|x pw]; [exact Sw|]. apply starts_app; [discriminate|]. exact (ptext_starts a t _ pt Hp ltac:(discriminate)). }
    destruct (props_then a t pw pt f i (w ++ ws ++ r) m Hp (starts_app _ _ Nw Sw) At t' m' al _ (ch_one _ _ _ _ _ _ _ _ S A)) as (l0 & C & T0).
    exists t', m', al. eexists. split; [rewrite <- !app_assoc; exact C|]. split; [rewrite map_app, T0; reflexivity|exact T].
Qed.
Lemma ptext_props a t pw pt : ptext e a t pw pt -> opt_properties e pt a t.
Proof.
  intros [|a0 _|w h s t0 [? ? ? ? ? _ _ R]|a0 w h s t0 _ [? ? ? ? ? _ _ R]]; [constructor|apply OP_some; constructor|apply OP_some; constructor; exact R|apply OP_some; constructor; exact R].
Qed.
Lemma ptext_some a t pw pt : ptext e a t pw pt -> pw <> [] -> properties e pt a t.
Proof. intros P N. destruct (ptext_props a t pw pt P) as [|? ? ? H]; [inversion P; subst; contradiction|exact H]. Qed.
Lemma leaf_node flow n x w ts k : leaf g e flow n x w ts -> node common e k ts x.
Proof.
  intros [a _|a t pw pt s style w0 P _]; [apply N_alias|]. apply (N_content common e k pt a t [TScalar (utf8 s) style]); [exact (ptext_props a t pw pt P)|apply C_scalar].
Qed.
End Leaf.
End Chain.
