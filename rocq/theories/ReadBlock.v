(* Reading the written texts of block collections and of nodes in block context. *)
From Verif Require Import Base ReaderModel Utf8Spec CharSpec Types CursorModel ScanModel ScannerModel CursorProofs ScanProofs ScanQuoted ScannerInv PlanFree FullRun WriterModel WriterSpec PenModel PenText TreeSpec AgreeSpec GrammarSpec RoundSpec EagerScan TagRun DoubleTrip SingleTrip PlainTrip BlockTrip ScanStep TextGrammar ReadLeaf ReadFlow.

(* after a line break and [k] spaces the column is [k] *)
Lemma adv_new_line t0 m0 r m' : adv t0 m0 r m' -> forall a x k, t0 = a ++ x :: repeat 0x20 k ++ r -> is_break x = true ->
  m_column m' = N.of_nat k /\ m_line m0 < m_line m'.
Proof.
  assert (Sp : forall k r m1 m2, m_column m1 = 0 -> adv (repeat 0x20 k ++ r) m1 r m2 -> m_column m2 = N.of_nat k /\ m_line m1 = m_line m2).
  { intros k r0 m1 m2 C A. rewrite (adv_det _ _ _ _ A _ _ (adv_spaces k r0 m1) eq_refl). cbn [next_column m_column m_line]. split; lia. }
  induction 1 as [t m|y t m t' m' By A IH|t m t' m' A IH|y t m t' m' By Nl A IH]; intros a x k E Bx.
  - exfalso. apply (f_equal (@length N)) in E. rewrite !app_length in E. cbn [length] in E. rewrite app_length in E. lia.
  - destruct a as [|z a]; cbn [app] in E; injection E as -> E; [congruence|]. destruct (IH a x k E Bx). split; [assumption|]. cbn [next_column m_line] in *. lia.
  - destruct a as [|z [|z2 a]]; cbn [app] in E.
    + injection E as <- E. destruct k as [|k]; cbn [repeat app] in E; [|discriminate E].
      exfalso. apply adv_len in A. rewrite <- E in A. cbn [length] in A. lia.
    + injection E as <- <- E. rewrite E in A. destruct (Sp k t' (next_line 2 m) m' eq_refl A) as [H1 H2]. split; [exact H1|]. rewrite <- H2. cbn [next_line m_line]. lia.
    + injection E as <- <- E. destruct (IH a x k E Bx). split; [assumption|]. cbn [next_line m_line] in *. lia.
  - destruct a as [|z a]; cbn [app] in E; injection E as -> E.
    + rewrite E in A. destruct (Sp k t' (next_line 1 m) m' eq_refl A) as [H1 H2]. split; [exact H1|]. rewrite <- H2. cbn [next_line m_line]. lia.
    + destruct (IH a x k E Bx). split; [assumption|]. cbn [next_line m_line] in *. lia.
Qed.

Section Block.
Variables (enc : encoding) (nest : Z) (g : cfg) (e : env).
Hypothesis B : g_break g <> AnyBreak.
Hypothesis Hind : (2 <= g_indent g <= 9)%Z.
Hypothesis Hnest : (nest <= Z.of_N INT_MAX)%Z.
Notation st := (st enc nest). Notation fits := (fits nest). Notation chain := (chain enc nest). Notation room := (room nest).
Notation width ind := (Z.to_nat (content_indent g ind)).
Notation brk := (brk g). Notation btext := (btext g e).

(* what follows a node: a line break, unless the text ended with one, and a line that is
   not indented more than the collection the node is in *)
Definition block_follow (ind : Z) (nl : bool) (rest r : list N) (k : nat) : Prop :=
  rest = brk nl ++ repeat 0x20 k ++ r /\ starts r /\ (((0 <= ind)%Z /\ (Z.of_nat k <= ind)%Z) \/ (ind = (-1)%Z /\ k = O /\ document_ends r)).
(* no simple key is left *)
Definition spent (m : mark) (ks : list skey) : Prop := idle m ks /\ exists k kr, stale m ks = inl (k :: kr) /\ k_possible k = false.
Definition brk_last : exists u x, break_chars g = u ++ [x] /\ is_break x = true /\ white_text (break_chars g).
Proof.
  unfold break_chars. destruct (g_break g) eqn:E; [contradiction|exists [], 0xD|exists [], 0xA|exists [0xD], 0xA]; (split; [reflexivity|]; split; [reflexivity|]); repeat constructor; right; reflexivity.
Qed.
Lemma spent_dead m ks : idle m ks -> dead ks -> spent m ks.
Proof.
  intros I D. split; [exact I|]. destruct (idle_stale m ks I) as (k & kr & E & _ & F). exists k, kr. split; [exact E|]. inversion F as [|? ? ? ? H]; subst. exact (H D).
Qed.
Lemma spent_line m0 m ks : m_line m0 < m_line m -> idle m0 ks -> spent m ks.
Proof.
  intros L I. split; [eapply idle_later; [|exact I]; lia|]. destruct I as [N T]. destruct (new_line_stale m0 m ks L T) as (ks' & E & D & Ln).
  destruct ks' as [|k kr]; [destruct ks; [contradiction|discriminate]|]. inversion D; subst. eauto.
Qed.
Lemma follow_text ind rest r k : block_follow ind false rest r k -> exists ws u x, rest = ws ++ r /\ ws = u ++ x :: repeat 0x20 k /\ is_break x = true /\ white_text ws /\ existsb is_break ws = true /\ ends 0 ind ws r.
Proof.
  intros (-> & S & K). destruct brk_last as (u & x & Eb & Bx & W). exists (break_chars g ++ repeat 0x20 k), u, x. cbn [TextGrammar.brk].
  assert (E : break_chars g ++ repeat 0x20 k = u ++ x :: repeat 0x20 k) by (rewrite Eb, <- app_assoc; reflexivity).
  assert (Wt : white_text (break_chars g ++ repeat 0x20 k)) by (apply Forall_app; split; [exact W|apply spaces_white]).
  split; [rewrite <- app_assoc; reflexivity|]. split; [exact E|]. split; [exact Bx|]. split; [exact Wt|]. split.
  { rewrite E, flat_app. cbn [existsb]. rewrite Bx. cbn. apply orb_true_r. }
  unfold ends. split; [exact Wt|]. split; [exact S|].
  assert (Hd : is_blankz (nth 0 ((break_chars g ++ repeat 0x20 k) ++ r) 0) = true).
  { destruct (white_head (break_chars g ++ repeat 0x20 k) r Wt) as [[X _]|[_ X]]; [|exact X]. rewrite E in X. destruct u; discriminate. }
  split; [|split; [intros X; rewrite X in Hd; discriminate|exact (blankz_anchor_end _ Hd)]].
  destruct K as [[K1 K2]|(-> & -> & De)].
  - destruct (N.eqb_spec (nth 0 r 0) 0) as [Z|Z]; [left; exact Z|]. right; right; right; right; left. split; [reflexivity|]. split.
    { destruct S as (S1 & S2 & _). unfold is_blankz, is_breakz. rewrite S1, S2. cbn. unfold is_z. apply N.eqb_neq. exact Z. }
    exists u, x, k. auto.
  - destruct De as [-> | De]; [left; reflexivity|]. right; right; right; right; right. split; [exact De|]. exists u, x. rewrite E. auto.
Qed.
(* the white space after a node *)
Lemma follow_gap ind rest r k m q is al ks m0 : block_follow ind false rest r k -> m_line m0 <= m_line m -> idle m0 ks ->
  exists m', leads (st rest m 0 q is ind al ks) (st r m' 0 q is ind true ks) /\ adv rest m r m' /\ m_column m' = N.of_nat k /\ spent m' ks.
Proof.
  intros F L I. pose proof (follow_text ind rest r k F) as (ws & u & x & -> & Ew & Bx & W & Eb & (_ & S & _)).
  destruct (alike_gap enc nest ws r m 0 q is ind al ks S W) as (m' & A & C & Ln & Al). rewrite Eb in Ln, Al. cbn [andb negb fl] in Al. change (fl 0) with false in Al. rewrite orb_true_r in Al.
  exists m'. split; [apply leads_alike; exact Al|]. split; [exact A|]. split; [|eapply spent_line; [|exact I]; lia].
  rewrite C, Ew. apply wcol_break. exact Bx.
Qed.

Definition gap_ok (comp : option Z) (al : bool) (m : mark) : Prop :=
  match comp with Some c => al = true /\ Z.of_N (m_column m) = c | None => True end.
Definition space (is : list Z) (ind : Z) (h : nat) : Prop := room is 0 h /\ (ind + 9 * Z.of_nat h <= Z.of_N INT_MAX)%Z /\ (-1 <= ind)%Z /\ (ind = (-1)%Z -> is = []).
Definition kind_of (mapping : bool) : kind := if mapping then BlockOrIndentless else Block.
Definition block_reads (mapping : bool) (ind : Z) (comp : option Z) (x : tree) (text : list N) (nl : bool) : Prop :=
  forall is q al ks rest r k m, space is ind (height x) -> idle m ks -> (ind < Z.of_N (m_column m))%Z -> gap_ok comp al m -> block_follow ind nl rest r k ->
  exists m' l ks', leads (st (text ++ rest) m 0 q is ind al ks) (st r m' 0 (q ++ l) is ind true ks') /\ adv (text ++ rest) m r m' /\ m_column m' = N.of_nat k /\ spent m' ks' /\
    opt_node common e (kind_of mapping) (map t_tok l) x.

(* white space before the text *)
Lemma gap_first white t m q is i al ks : starts t -> exists m1, leads (st (gap_text white ++ t) m 0 q is i al ks) (st t m1 0 q is i al ks) /\ adv (gap_text white ++ t) m t m1 /\ m_line m1 = m_line m /\ m_column m <= m_column m1.
Proof.
  intros S. destruct white; cbn [gap_text app].
  - exists m. split; [apply leads_refl|]. split; [constructor|]. split; [reflexivity|lia].
  - exists (next_column 1 m). split; [apply leads_alike; exact (alike_spaces enc nest 1 t m 0 q is i al ks S)|]. split; [apply adv_one; reflexivity|]. split; [reflexivity|cbn [next_column m_column]; lia].
Qed.

Lemma leaf_block mapping ind white comp x w ts : leaf g e false (width ind) x w ts -> block_reads mapping ind comp x (gap_text white ++ w) false.
Proof.
  intros Lf is q al ks rest r k m (R & Hc & Hi & _) I Col G Fo.
  destruct (width_pos g ltac:(lia) ind Hi) as [W1 W2].
  pose proof (follow_text ind rest r k Fo) as (ws & u & y & Er & Ew & By & W & Eb & En).
  destruct (leaf_chain enc nest g e B false (width ind) x w ts 0 ind ws r m Lf eq_refl W1 (or_intror W2) ltac:(right; lia) En) as (Nw & Sw & _).
  rewrite <- app_assoc.
  destruct (gap_first white (w ++ rest) m q is ind al ks (starts_app _ _ Nw Sw)) as (m1 & G1 & A1 & L1 & C1).
  destruct (leaf_chain enc nest g e B false (width ind) x w ts 0 ind ws r m1 Lf eq_refl W1 (or_intror W2) ltac:(right; lia) En) as (_ & _ & t' & m2 & al2 & l & C & Tl & Te).
  rewrite Er in G1, A1.
  destruct (chain_idle_from enc nest 0 ind _ _ _ _ _ _ C q is al ks m ltac:(lia) (room_fits _ _ _ _ R) I ltac:(right; right; lia)) as (ks2 & G2 & I2 & K2).
  pose proof (chain_adv _ _ _ _ _ _ _ _ _ _ C) as A2.
  assert (N2 : opt_node common e (kind_of mapping) (map t_tok l) x) by (apply O_some; rewrite Tl; exact (leaf_node g e false _ x w ts _ Lf)).
  assert (I3 : idle m1 ks2) by (eapply idle_later; [|exact I2]; destruct al; lia).
  destruct Te as [[-> ->]|[-> ->]].
  - rewrite Er in Fo. destruct (follow_gap ind (ws ++ r) r k m2 (q ++ l) is false ks2 m1 Fo (adv_line_le _ _ _ _ A2) I3) as (m3 & G3 & A3 & C3 & S3).
    exists m3, l, ks2. rewrite Er. split; [eapply leads_trans; [exact G1|]; eapply leads_trans; [exact G2|exact G3]|]. split; [eapply adv_trans; [exact A1|]; eapply adv_trans; [exact A2|exact A3]|]. auto.
  - rewrite Eb in G2. assert (E : w ++ ws ++ r = (w ++ u) ++ y :: repeat 0x20 k ++ r) by (rewrite Ew, <- !app_assoc; reflexivity).
    destruct (adv_new_line _ _ _ _ A2 (w ++ u) y k E By) as [C2 L2].
    exists m2, l, ks2. rewrite Er. split; [eapply leads_trans; [exact G1|exact G2]|]. split; [eapply adv_trans; [exact A1|exact A2]|]. split; [exact C2|]. split; [|exact N2].
    eapply spent_line; [exact L2|exact I3].
Qed.
Lemma coll_block mapping ind white comp x w : ctext g e ind x w -> block_reads mapping ind comp x (gap_text white ++ w) false.
Proof.
  intros Ct is q al ks rest r k m (R & Hc & Hi & _) I Col G Fo.
  destruct (coll_read enc nest g e B ltac:(lia) Hnest ind x w Ct Hi) as (Nw & Sw & Cr).
  rewrite <- app_assoc. destruct (gap_first white (w ++ rest) m q is ind al ks (starts_app _ _ Nw Sw)) as (m1 & G1 & A1 & L1 & C1).
  destruct (Cr 0 ind is q al ks rest m1 R ltac:(right; lia) ltac:(right; right; lia) (later_line _ _ _ L1 I)) as (m2 & l & ks2 & G2 & A2 & I2 & K2 & N2).
  destruct (follow_gap ind rest r k m2 (q ++ l) is false ks2 m2 Fo ltac:(lia) I2) as (m3 & G3 & A3 & C3 & S3).
  exists m3, l, ks2. split; [eapply leads_trans; [exact G1|]; eapply leads_trans; [exact G2|exact G3]|]. split; [eapply adv_trans; [exact A1|]; eapply adv_trans; [exact A2|exact A3]|].
  split; [exact C3|]. split; [exact S3|]. apply O_some. apply N2.
Qed.
Lemma null_block mapping ind comp : block_reads mapping ind comp null [] false.
Proof.
  intros is q al ks rest r k m _ I Col G Fo. destruct (follow_gap ind rest r k m q is al ks m Fo ltac:(lia) I) as (m3 & G3 & A3 & C3 & S3).
  exists m3, [], ks. rewrite app_nil_r. split; [exact G3|]. split; [exact A3|]. split; [exact C3|]. split; [exact S3|constructor].
Qed.
(* an anchor and a tag, at the end of the line *)
Lemma props_block a t pw pt ind white is q al ks rest m : ptext e a t pw pt -> pw <> [] -> is_blankz (nth 0 rest 0) = true -> fits is 0 -> idle m ks -> (ind < Z.of_N (m_column m))%Z ->
  exists m1 l ks1, leads (st (gap_text white ++ pw ++ rest) m 0 q is ind al ks) (st rest m1 0 (q ++ l) is ind false ks1) /\ adv (gap_text white ++ pw ++ rest) m rest m1 /\ idle m1 ks1 /\ map t_tok l = pt.
Proof.
  intros P N Z R I Col. pose proof (ptext_starts e a t pw pt P N) as Sw.
  destruct (gap_first white (pw ++ rest) m q is ind al ks (starts_app _ _ N Sw)) as (m1 & G1 & A1 & L1 & C1).
  destruct (props_chain enc nest e a t pw pt 0 ind rest m1 P N Z ltac:(right; lia)) as (l & C & Tl).
  destruct (chain_idle enc nest 0 ind _ _ _ _ _ _ C q is al ks R (later_line _ _ _ L1 I) ltac:(right; right; lia)) as (ks2 & G2 & I2 & K2).
  eexists _, l, ks2. split; [eapply leads_trans; [exact G1|exact G2]|]. split; [eapply adv_trans; [exact A1|exact (chain_adv _ _ _ _ _ _ _ _ _ _ C)]|]. auto.
Qed.
Lemma break_blankz t : is_blankz (nth 0 (break_chars g ++ t) 0) = true.
Proof. unfold break_chars. destruct (g_break g); [contradiction| | |]; reflexivity. Qed.
Lemma follow_blankz ind rest r k : block_follow ind false rest r k -> is_blankz (nth 0 rest 0) = true.
Proof. intros (-> & _). apply break_blankz. Qed.
Lemma empty_block mapping ind white comp a t pw pt : ptext e a t pw pt -> pw <> [] -> block_reads mapping ind comp (Scalar a t [] (implicit_of t) false Plain) (gap_text white ++ pw) false.
Proof.
  intros P N is q al ks rest r k m (R & _) I Col G Fo. rewrite <- app_assoc.
  destruct (props_block a t pw pt ind white is q al ks rest m P N (follow_blankz _ _ _ _ Fo) (room_fits _ _ _ _ R) I Col) as (m1 & l & ks1 & G1 & A1 & I1 & T1).
  destruct (follow_gap ind rest r k m1 (q ++ l) is false ks1 m1 Fo ltac:(lia) I1) as (m3 & G3 & A3 & C3 & S3).
  exists m3, l, ks1. split; [eapply leads_trans; [exact G1|exact G3]|]. split; [eapply adv_trans; [exact A1|exact A3]|]. split; [exact C3|]. split; [exact S3|].
  apply O_some. rewrite T1. apply N_empty. exact (ptext_some e a t pw pt P N).
Qed.
Lemma scalar_block mapping ind white comp a t pw pt (literal : bool) s d w : ptext e a t pw pt -> s <> [] -> digit_ok d -> header_fits ind (width ind) s d ->
  bt g literal (width ind) (AtBreak Kept) s w ->
  block_reads mapping ind comp (read_scalar a t s (if literal then Literal else Folded))
      (gap_text white ++ pw ++ sep pw ++ (if literal then 0x7C else 0x3E) :: digit_text d ++ chomp_text (chomp_of (tail_breaks 1 s)) ++ break_chars g ++ w) (is_break (last s 0)).
Proof.
  intros P Ns Hd Hf D is q al ks rest r k m (R & Hc & Hi & _) I Col G Fo.
  destruct (width_pos g ltac:(lia) ind Hi) as [W1 W2].
  set (x := if literal then 0x7C else 0x3E). set (t1 := digit_text d ++ chomp_text (chomp_of (tail_breaks 1 s)) ++ break_chars g ++ w ++ rest).
  assert (Sx : starts (x :: t1)) by (unfold x; destruct literal; (apply starts_ascii; [reflexivity|reflexivity|discriminate|lia])).
  assert (Et : (gap_text white ++ pw ++ sep pw ++ x :: digit_text d ++ chomp_text (chomp_of (tail_breaks 1 s)) ++ break_chars g ++ w) ++ rest = gap_text white ++ pw ++ sep pw ++ x :: t1).
  { unfold t1. rewrite <- !app_assoc. cbn [app]. rewrite <- !app_assoc. reflexivity. }
  rewrite Et.
  assert (Sp : starts (pw ++ sep pw ++ x :: t1)).
  { destruct pw as [|y pw]; [exact Sx|]. apply starts_app; [discriminate|]. exact (ptext_starts e a t _ pt P ltac:(discriminate)). }
  destruct (gap_first white (pw ++ sep pw ++ x :: t1) m q is ind al ks Sp) as (m1 & G1 & A1 & L1 & C1).
  destruct (props_leads enc nest e a t pw pt 0 ind q is al ks (x :: t1) m1 P Sx (room_fits _ _ _ _ R) ltac:(right; lia) ltac:(right; right; lia) (later_line _ _ _ L1 I)) as (l & ks2 & al2 & G2 & A2 & I2 & _ & _ & T2).
  set (m2 := next_column (nlen (pw ++ sep pw)) m1) in *.
  pose proof Fo as (Er & Sr & Kr).
  assert (Tb : tail_ok (brk (is_break (last s 0))) (tail_breaks 1 s)).
  { destruct (exists_last Ns) as (s' & y & Es). rewrite Es. rewrite last_last. unfold tail_ok. rewrite tail_snoc.
    destruct (is_break y); [reflexivity|]. cbn [TextGrammar.brk Nat.eqb]. unfold line_break, break_chars. destruct (g_break g); [contradiction|left; eauto|left; eauto|right; reflexivity]. }
  destruct (block_scanned g literal ind (width ind) s w (brk (is_break (last s 0))) r k d x m2 B W1 ltac:(lia) (proj1 Sr) (proj1 (proj2 Sr)) Ns Hd Hf D Tb) as (en & m3 & E & C3).
  rewrite <- Er in E. fold t1 in E.
  assert (A3 : adv (x :: t1) m2 r m3) by (refine (block_scalar_adv ind literal _ m2 _ _ m3 _ _ E); unfold x; destruct literal; (discriminate || reflexivity)).
  destruct (idle_stale m2 ks2 I2) as (kk & kr & Es & I3 & _).
  pose proof (block_scalar_step enc nest literal t1 m2 (q ++ l) is ind al2 ks2 kk kr r m3 _ ltac:(unfold m2; cbn [next_column m_column]; lia) (room_fits _ _ _ _ R) Es (harmless_soft _ _ _ I3) E) as G3.
  eexists m3, _, (kill kk :: kr). split; [eapply leads_trans; [exact G1|]; eapply leads_trans; [exact G2|]; rewrite <- app_assoc in G3; exact G3|].
  split; [eapply adv_trans; [exact A1|]; eapply adv_trans; [exact A2|exact A3]|]. split; [exact C3|]. split.
  - apply spent_dead; [|reflexivity]. split; [discriminate|]. constructor; [apply dead_harmless; reflexivity|]. destruct I3 as [_ T3]. inversion T3; subst. eapply tidy_later; [exact (adv_line_le _ _ _ _ A3)|assumption].
  - rewrite map_app, T2. apply O_some. apply (N_content common e _ pt a t); [exact (ptext_props e a t pw pt P)|]. apply C_scalar.
Qed.

(* ---- collections ---- *)
(* the entries of a block collection at column [j], up to its end; the collection is
   opened where the indentation is less *)
Definition entries_reads (h : nat) (j : Z) (start : tok) (text : list N) (nl : bool) (P : list tok -> Prop) : Prop :=
  starts text /\ text <> [] /\
  forall is i q ks rest r k m, Z.of_N (m_column m) = j -> (i <= j)%Z -> space (roll_is i m is) j h -> idle m ks -> block_follow j nl rest r k ->
  exists m' l ks', leads (st (text ++ rest) m 0 q is i true ks) (st r m' 0 (q ++ rolled i m start ++ l) (roll_is i m is) j true ks') /\ adv (text ++ rest) m r m' /\ m_column m' = N.of_nat k /\ spent m' ks' /\
    P (map t_tok l).
Lemma roll_i_at i m j : Z.of_N (m_column m) = j -> (i <= j)%Z -> roll_i i m = j.
Proof. intros E H. unfold roll_i. destruct (Z.ltb_spec i (Z.of_N (m_column m))); lia. Qed.
Lemma roll_again m j start is : Z.of_N (m_column m) = j -> rolled j m start = [] /\ roll_is j m is = is.
Proof. intros E. unfold rolled, roll_is. destruct (Z.ltb_spec j (Z.of_N (m_column m))); [lia|auto]. Qed.
Lemma space_less is j h h' : (h' <= h)%nat -> space is j h -> space is j h'.
Proof. unfold space, ReadFlow.room. intros H (H1 & H2 & H3 & H4). repeat split; [lia|lia|exact H3|exact H4]. Qed.
Lemma block_blankz mapping ind comp x ws w nl rest r k : btext mapping ind false comp x ws w nl -> block_follow ind nl rest r k -> is_blankz (nth 0 ((ws ++ w) ++ rest) 0) = true.
Proof.
  intros D Fo. remember false as white. rewrite <- app_assoc.
  assert (P : forall t j, pad_ok white comp j -> is_blankz (nth 0 (pad g comp j ++ t) 0) = true).
  { intros t j Ok. unfold pad, pad_ok in *. destruct comp as [c|]; [|rewrite <- app_assoc; apply break_blankz]. destruct Ok as [_ Ok]. specialize (Ok Heqwhite).
    unfold spaces. destruct (Z.to_nat (j - c)) eqn:E; [lia|]. reflexivity. }
  destruct D; subst white; try reflexivity; try (apply P; assumption).
  - exact (follow_blankz _ _ _ _ Fo).
  - apply (P _ ind). exact I.
Qed.
Lemma follow_next j nl text rest : starts text -> text <> [] -> (0 <= j)%Z -> block_follow j nl (brk nl ++ spaces j ++ text ++ rest) (text ++ rest) (Z.to_nat j).
Proof. intros S N Hj. split; [reflexivity|]. split; [apply starts_app; assumption|]. left. lia. Qed.
Lemma dash_entry j x ws w nl is i q ks rest r k m : block_reads false j (Some (j + 1)%Z) x (ws ++ w) nl -> btext false j false (Some (j + 1)%Z) x ws w nl ->
  Z.of_N (m_column m) = j -> (i <= j)%Z -> space (roll_is i m is) j (height x) -> idle m ks -> block_follow j nl rest r k -> (0 <= j)%Z ->
  exists m' l ks', leads (st ((0x2D :: ws ++ w) ++ rest) m 0 q is i true ks) (st r m' 0 (q ++ rolled i m TBlockSeqStart ++ l) (roll_is i m is) j true ks') /\ adv ((0x2D :: ws ++ w) ++ rest) m r m' /\
    m_column m' = N.of_nat k /\ spent m' ks' /\ exists ts, map t_tok l = TBlockEntry :: ts /\ opt_node common e Block ts x.
Proof.
  intros Hr D Cm Hi Sp I Fo Hj.
  destruct (idle_stale m ks I) as (k1 & kr & Es & I1 & _).
  pose proof (block_blankz _ _ _ _ _ _ _ _ _ _ D Fo) as Z.
  pose proof Sp as (R & Hc & _).
  pose proof (entry_step enc nest ((ws ++ w) ++ rest) m q is i ks k1 kr ltac:(lia) ltac:(lia) Z (room_fits _ _ _ _ R) Es (harmless_soft _ _ _ I1)) as G1.
  rewrite (roll_i_at i m j Cm Hi) in G1.
  destruct (Hr (roll_is i m is) (q ++ rolled i m TBlockSeqStart ++ [mark_token TBlockEntry m]) true (kill k1 :: kr) rest r k (next_column 1 m) Sp) as (m2 & l & ks2 & G2 & A2 & C2 & S2 & N2).
  { split; [discriminate|]. constructor; [apply dead_harmless; reflexivity|]. destruct I1 as [_ T1]. inversion T1; subst. eapply tidy_later; [|eassumption]. reflexivity. }
  { cbn [next_column m_column]. lia. }
  { split; [reflexivity|]. cbn [next_column m_column]. lia. }
  { exact Fo. }
  exists m2, (mark_token TBlockEntry m :: l), ks2. cbn [app] in *. split; [eapply leads_trans; [exact G1|]; rewrite <- (app_assoc q), <- (app_assoc (rolled i m TBlockSeqStart)) in G2; exact G2|].
  split; [eapply adv_trans; [apply adv_one; reflexivity|exact A2]|]. split; [exact C2|]. split; [exact S2|]. eexists. split; [reflexivity|exact N2].
Qed.

Definition seq_entries (xs : list tree) (ts : list tok) : Prop := block_sequence common e (ts ++ [TBlockEnd]) xs /\ indentless common e ts xs.
Definition map_entries (ps : list (tree * tree)) (ts : list tok) : Prop := block_mapping common e (ts ++ [TBlockEnd]) ps.

Lemma starts_dash t : starts (0x2D :: t).
Proof. apply starts_ascii; [reflexivity|reflexivity|discriminate|lia]. Qed.
Lemma one_entry j x ws w nl : (0 <= j)%Z -> block_reads false j (Some (j + 1)%Z) x (ws ++ w) nl -> btext false j false (Some (j + 1)%Z) x ws w nl ->
  entries_reads (heights [x]) j TBlockSeqStart (0x2D :: ws ++ w) nl (seq_entries [x]).
Proof.
  intros Hj Hr D. split; [apply starts_dash|]. split; [discriminate|]. intros is i q ks rest r k m Cm Hi Sp I Fo.
  assert (Sp1 : space (roll_is i m is) j (height x)) by (eapply space_less; [|exact Sp]; rewrite heights_cons; lia).
  destruct (dash_entry j x ws w nl is i q ks rest r k m Hr D Cm Hi Sp1 I Fo Hj) as (m' & l & ks' & G & A & C & S & ts & El & N).
  exists m', l, ks'. split; [exact G|]. split; [exact A|]. split; [exact C|]. split; [exact S|]. rewrite El. split; [apply (BS_entry common e ts x [TBlockEnd] []); [exact N|constructor]|apply IS_last; exact N].
Qed.
Lemma more_entries j x xs ws w nl w' nl' : (0 <= j)%Z -> block_reads false j (Some (j + 1)%Z) x (ws ++ w) nl -> btext false j false (Some (j + 1)%Z) x ws w nl ->
  entries_reads (heights xs) j TBlockSeqStart w' nl' (seq_entries xs) -> entries_reads (heights (x :: xs)) j TBlockSeqStart (0x2D :: ws ++ w ++ brk nl ++ spaces j ++ w') nl' (seq_entries (x :: xs)).
Proof.
  intros Hj Hr D (Sw & Nw & Hw). split; [apply starts_dash|]. split; [discriminate|]. intros is i q ks rest r k m Cm Hi Sp I Fo.
  set (rest1 := brk nl ++ spaces j ++ w' ++ rest).
  assert (Sp1 : space (roll_is i m is) j (height x)) by (eapply space_less; [|exact Sp]; rewrite heights_cons; lia).
  destruct (dash_entry j x ws w nl is i q ks rest1 (w' ++ rest) (Z.to_nat j) m Hr D Cm Hi Sp1 I (follow_next j nl w' rest Sw Nw Hj) Hj) as (m1 & l & ks1 & G & A & C & [I1 _] & ts & El & N).
  assert (Cm1 : Z.of_N (m_column m1) = j) by lia. destruct (roll_again m1 j TBlockSeqStart (roll_is i m is) Cm1) as [R1 R2].
  destruct (Hw (roll_is i m is) j (q ++ rolled i m TBlockSeqStart ++ l) ks1 rest r k m1 Cm1 ltac:(lia)) as (m2 & l2 & ks2 & G2 & A2 & C2 & S2 & P1 & P2); [rewrite R2; eapply space_less; [|exact Sp]; rewrite heights_cons; lia|exact I1|exact Fo|].
  rewrite R1, R2 in G2. cbn [app] in G2.
  assert (Et : (0x2D :: ws ++ w ++ brk nl ++ spaces j ++ w') ++ rest = (0x2D :: ws ++ w) ++ rest1) by (unfold rest1; cbn [app]; rewrite <- !app_assoc; reflexivity).
  exists m2, (l ++ l2), ks2. rewrite Et. split; [eapply leads_trans; [exact G|]; rewrite <- (app_assoc q), <- (app_assoc (rolled i m TBlockSeqStart)) in G2; exact G2|].
  split; [eapply adv_trans; [exact A|exact A2]|]. split; [exact C2|]. split; [exact S2|]. rewrite map_app, El. cbn [app].
  split; [cbn [app]; rewrite <- app_assoc; apply BS_entry; assumption|apply IS_entry; assumption].
Qed.
(* ---- pairs ---- *)
Definition pair_tokens (k v : tree) (ts : list tok) : Prop := exists a b, ts = TKey :: a ++ TValue :: b /\ opt_node common e BlockOrIndentless a k /\ opt_node common e BlockOrIndentless b v.
Lemma simple_pair j k v kw tail ws w nl : (0 <= j)%Z -> ktext g e false j k kw tail -> block_reads true j None v (ws ++ w) nl -> btext true j false None v ws w nl ->
  entries_reads (Nat.max (height k) (height v)) j TBlockMapStart (kw ++ tail ++ 0x3A :: ws ++ w) nl (pair_tokens k v).
Proof.
  intros Hj Hk Hv D. destruct (key_reads enc nest g e B ltac:(lia) Hnest false j k kw tail Hk ltac:(lia)) as (Nk & Sk & Kr).
  split; [apply starts_app; assumption|]. split; [destruct kw; [contradiction|discriminate]|]. intros is i q ks rest r n m Cm Hi Sp I Fo.
  pose proof Sp as (R & Hc & _ & _).
  assert (Ri : room is 0 (height k)) by (unfold ReadFlow.room, roll_is in *; destruct (i <? _)%Z; cbn [length] in R; lia).
  assert (Et : (kw ++ tail ++ 0x3A :: ws ++ w) ++ rest = kw ++ tail ++ 0x3A :: (ws ++ w) ++ rest) by (rewrite <- !app_assoc; cbn [app]; rewrite <- !app_assoc; reflexivity). rewrite Et.
  pose proof (block_blankz _ _ _ _ _ _ _ _ _ _ D Fo) as Z.
  destruct (Kr 0 i is q ks ((ws ++ w) ++ rest) m eq_refl (or_intror Hi) Ri ltac:(right; lia) I Z) as (m1 & l & al1 & kr & G1 & A1 & L1 & X1 & T1 & F1 & N1).
  destruct (fresh_stale m1 (new_key 0 q i m) kr T1 (fresh_key m m1 0 q i L1 X1)) as (kr' & Es & T2 & F2).
  pose proof (adv_same_line _ _ _ _ A1 L1) as Cl. pose proof (adv_index _ _ _ _ A1) as Ix. pose proof (adv_len _ _ _ _ A1) as Ln. unfold nlen in Ix.
  set (q1 := q ++ rolled i m TBlockMapStart ++ zero_token TKey m :: l ++ [mark_token TValue m1]).
  assert (G2 : leads (st (0x3A :: (ws ++ w) ++ rest) m1 0 (q ++ l) is i al1 (new_key 0 q i m :: kr)) (st ((ws ++ w) ++ rest) (next_column 1 m1) 0 q1 (roll_is i m is) j false (kill (new_key 0 q i m) :: kr'))).
  { destruct (Z.eq_dec i j) as [Eq|Ne].
    - destruct (roll_again m i TBlockMapStart is ltac:(lia)) as [E1 E2]. unfold q1. rewrite E1, E2. cbn [app]. rewrite <- Eq.
      apply (simple_value_step enc nest ((ws ++ w) ++ rest) m1 0 q l is i al1 _ (new_key 0 q i m) kr' (room_fits _ _ _ _ Ri) ltac:(right; lia) (or_intror Z) Es eq_refl eq_refl). right. cbn [new_key k_mark]. lia.
    - assert (E : rolled i m TBlockMapStart = [zero_token TBlockMapStart m] /\ roll_is i m is = i :: is) by (unfold rolled, roll_is; destruct (Z.ltb_spec i (Z.of_N (m_column m))); [auto|lia]).
      destruct E as [E1 E2]. unfold q1. rewrite E1, E2 in *. cbn [app]. rewrite <- Cm.
      apply (first_value_step enc nest ((ws ++ w) ++ rest) m1 q l is i al1 _ (new_key 0 q i m) kr' (room_fits _ _ _ _ R) ltac:(right; lia) Z Es eq_refl eq_refl); cbn [new_key k_mark]; lia. }
  destruct (Hv (roll_is i m is) q1 false (kill (new_key 0 q i m) :: kr') rest r n (next_column 1 m1)) as (m3 & l3 & ks3 & G3 & A3 & C3 & S3 & N3).
  { eapply space_less; [|exact Sp]. lia. }
  { split; [discriminate|]. constructor; [apply dead_harmless; reflexivity|]. eapply tidy_later; [|exact T2]. reflexivity. }
  { cbn [next_column m_column]. lia. }
  { constructor. }
  { exact Fo. }
  exists m3, (zero_token TKey m :: l ++ mark_token TValue m1 :: l3), ks3.
  split; [|split; [|split; [exact C3|split; [exact S3|]]]].
  - eapply leads_trans; [exact G1|]. eapply leads_trans; [exact G2|].
    replace (q ++ rolled i m TBlockMapStart ++ zero_token TKey m :: l ++ mark_token TValue m1 :: l3) with (q1 ++ l3); [exact G3|].
    unfold q1. rewrite <- (app_assoc q), <- (app_assoc (rolled i m TBlockMapStart)). cbn [app]. rewrite <- (app_assoc l). reflexivity.
  - eapply adv_trans; [exact A1|]. eapply adv_trans; [apply adv_one; reflexivity|exact A3].
  - cbn [map]. rewrite map_app. cbn [map]. eexists _, _. split; [reflexivity|]. split; [apply O_some; apply N1|exact N3].
Qed.
Lemma explicit_pair j k v ks0 kw knl ws w nl : (0 <= j)%Z -> block_reads true j (Some (j + 1)%Z) k (ks0 ++ kw) knl -> btext true j false (Some (j + 1)%Z) k ks0 kw knl ->
  block_reads true j (Some (j + 1)%Z) v (ws ++ w) nl -> btext true j false (Some (j + 1)%Z) v ws w nl ->
  entries_reads (Nat.max (height k) (height v)) j TBlockMapStart (0x3F :: ks0 ++ kw ++ brk knl ++ spaces j ++ 0x3A :: ws ++ w) nl (pair_tokens k v).
Proof.
  intros Hj Hk Dk Hv D. split; [apply starts_ascii; [reflexivity|reflexivity|discriminate|lia]|]. split; [discriminate|]. intros is i q ks rest r n m Cm Hi Sp I Fo.
  set (rest1 := brk knl ++ spaces j ++ (0x3A :: ws ++ w) ++ rest).
  assert (Et : (0x3F :: ks0 ++ kw ++ brk knl ++ spaces j ++ 0x3A :: ws ++ w) ++ rest = 0x3F :: (ks0 ++ kw) ++ rest1) by (unfold rest1; cbn [app]; rewrite <- !app_assoc; cbn [app]; rewrite <- !app_assoc; reflexivity). rewrite Et.
  assert (F1 : block_follow j knl rest1 ((0x3A :: ws ++ w) ++ rest) (Z.to_nat j)) by (apply follow_next; [apply starts_ascii; [reflexivity|reflexivity|discriminate|lia]|discriminate|exact Hj]).
  destruct (idle_stale m ks I) as (k1 & kr & Es & I1 & _).
  pose proof Sp as (R & Hc & _).
  pose proof (block_key_step enc nest ((ks0 ++ kw) ++ rest1) m q is i ks k1 kr ltac:(lia) ltac:(lia) (block_blankz _ _ _ _ _ _ _ _ _ _ Dk F1) (room_fits _ _ _ _ R) Es (harmless_soft _ _ _ I1)) as G1.
  rewrite (roll_i_at i m j Cm Hi) in G1. set (q1 := q ++ rolled i m TBlockMapStart ++ [mark_token TKey m]) in *.
  destruct (Hk (roll_is i m is) q1 true (kill k1 :: kr) rest1 ((0x3A :: ws ++ w) ++ rest) (Z.to_nat j) (next_column 1 m)) as (m2 & l2 & ks2 & G2 & A2 & C2 & (I2 & k2 & kr2 & Es2 & D2) & N2).
  { eapply space_less; [|exact Sp]. lia. }
  { split; [discriminate|]. constructor; [apply dead_harmless; reflexivity|]. destruct I1 as [_ T1]. inversion T1; subst. eapply tidy_later; [|eassumption]. reflexivity. }
  { cbn [next_column m_column]. lia. }
  { split; [reflexivity|]. cbn [next_column m_column]. lia. }
  { exact F1. }
  assert (Cm2 : Z.of_N (m_column m2) = j) by lia. destruct (roll_again m2 j TBlockMapStart (roll_is i m is) Cm2) as [R1 R2].
  cbn [app] in G2, A2, Es2.
  pose proof (block_value_step enc nest ((ws ++ w) ++ rest) m2 (q1 ++ l2) (roll_is i m is) j ks2 k2 kr2 ltac:(lia) ltac:(lia) (block_blankz _ _ _ _ _ _ _ _ _ _ D Fo)) as G3.
  rewrite R1, R2, (roll_i_at j m2 j Cm2 ltac:(lia)) in G3. specialize (G3 (room_fits _ _ _ _ R) Es2 D2). cbn [app] in G3.
  destruct (idle_stale m2 ks2 I2) as (k2' & kr2' & Es2' & I3 & _). rewrite Es2' in Es2. injection Es2 as -> ->.
  destruct (Hv (roll_is i m is) ((q1 ++ l2) ++ [mark_token TValue m2]) true (k2 :: kr2) rest r n (next_column 1 m2)) as (m4 & l4 & ks4 & G4 & A4 & C4 & S4 & N4).
  { eapply space_less; [|exact Sp]. lia. }
  { eapply idle_later; [|exact I3]. reflexivity. }
  { cbn [next_column m_column]. lia. }
  { split; [reflexivity|]. cbn [next_column m_column]. lia. }
  { exact Fo. }
  exists m4, (mark_token TKey m :: l2 ++ mark_token TValue m2 :: l4), ks4.
  split; [|split; [|split; [exact C4|split; [exact S4|]]]].
  - eapply leads_trans; [exact G1|]. eapply leads_trans; [exact G2|]. eapply leads_trans; [exact G3|].
    replace (q ++ rolled i m TBlockMapStart ++ mark_token TKey m :: l2 ++ mark_token TValue m2 :: l4) with (((q1 ++ l2) ++ [mark_token TValue m2]) ++ l4); [exact G4|].
    unfold q1. rewrite <- !app_assoc. reflexivity.
  - eapply adv_trans; [apply adv_one; reflexivity|]. eapply adv_trans; [exact A2|]. eapply adv_trans; [apply adv_one; reflexivity|exact A4].
  - cbn [map]. rewrite map_app. cbn [map]. eexists _, _. split; [reflexivity|]. split; [exact N2|exact N4].
Qed.

Lemma one_pair j k v w nl : entries_reads (Nat.max (height k) (height v)) j TBlockMapStart w nl (pair_tokens k v) -> entries_reads (pheights [(k, v)]) j TBlockMapStart w nl (map_entries [(k, v)]).
Proof.
  intros (Sw & Nw & Hw). split; [exact Sw|]. split; [exact Nw|]. intros is i q ks rest r n m Cm Hi Sp I Fo.
  destruct (Hw is i q ks rest r n m Cm Hi) as (m' & l & ks' & G & A & C & S & (a & b & E & N1 & N2)); auto.
  { eapply space_less; [|exact Sp]. rewrite pheights_cons. lia. }
  exists m', l, ks'. split; [exact G|]. split; [exact A|]. split; [exact C|]. split; [exact S|]. unfold map_entries. rewrite E.
  replace ((TKey :: a ++ TValue :: b) ++ [TBlockEnd]) with (TKey :: a ++ (TValue :: b) ++ [TBlockEnd]) by (cbn [app]; rewrite <- app_assoc; reflexivity).
  apply BM_pair; [exact N1|apply V_some; exact N2|constructor].
Qed.
Lemma more_pairs j k v ps w nl w' nl' : (0 <= j)%Z -> entries_reads (Nat.max (height k) (height v)) j TBlockMapStart w nl (pair_tokens k v) -> entries_reads (pheights ps) j TBlockMapStart w' nl' (map_entries ps) ->
  entries_reads (pheights ((k, v) :: ps)) j TBlockMapStart (w ++ brk nl ++ spaces j ++ w') nl' (map_entries ((k, v) :: ps)).
Proof.
  intros Hj (Sx & Nx & Hx) (Sw & Nw & Hw). split; [apply starts_app; assumption|]. split; [destruct w; [contradiction|discriminate]|]. intros is i q ks rest r n m Cm Hi Sp I Fo.
  set (rest1 := brk nl ++ spaces j ++ w' ++ rest).
  destruct (Hx is i q ks rest1 (w' ++ rest) (Z.to_nat j) m Cm Hi) as (m1 & l & ks1 & G & A & C & [I1 _] & (a & b & E & N1 & N2)); auto.
  { eapply space_less; [|exact Sp]. rewrite pheights_cons. lia. }
  { apply follow_next; assumption. }
  assert (Cm1 : Z.of_N (m_column m1) = j) by lia. destruct (roll_again m1 j TBlockMapStart (roll_is i m is) Cm1) as [R1 R2].
  destruct (Hw (roll_is i m is) j (q ++ rolled i m TBlockMapStart ++ l) ks1 rest r n m1 Cm1 ltac:(lia)) as (m2 & l2 & ks2 & G2 & A2 & C2 & S2 & P); [rewrite R2; eapply space_less; [|exact Sp]; rewrite pheights_cons; lia|exact I1|exact Fo|].
  rewrite R1, R2 in G2. cbn [app] in G2.
  assert (Et : (w ++ brk nl ++ spaces j ++ w') ++ rest = w ++ rest1) by (unfold rest1; rewrite <- !app_assoc; reflexivity).
  exists m2, (l ++ l2), ks2. rewrite Et. split; [eapply leads_trans; [exact G|]; rewrite <- (app_assoc q), <- (app_assoc (rolled i m TBlockMapStart)) in G2; exact G2|].
  split; [eapply adv_trans; [exact A|exact A2]|]. split; [exact C2|]. split; [exact S2|]. unfold map_entries. rewrite map_app, E.
  replace (((TKey :: a ++ TValue :: b) ++ map t_tok l2) ++ [TBlockEnd]) with (TKey :: a ++ (TValue :: b) ++ map t_tok l2 ++ [TBlockEnd]) by (cbn [app]; rewrite <- !app_assoc; reflexivity).
  apply BM_pair; [exact N1|apply V_some; exact N2|exact P].
Qed.

(* a block collection indented more than the one it is in, with its end *)
Lemma nested h ind j start w nl P is q ks rest r k m : entries_reads h j start w nl P -> (ind < j)%Z -> j = inner g ind -> space is ind (S h) -> Z.of_N (m_column m) = j -> idle m ks -> block_follow ind nl rest r k ->
  exists m' l ks', leads (st (w ++ rest) m 0 q is ind true ks) (st r m' 0 (q ++ zero_token start m :: l ++ [zero_token TBlockEnd m']) is ind true ks') /\ adv (w ++ rest) m r m' /\ m_column m' = N.of_nat k /\ spent m' ks' /\ P (map t_tok l).
Proof.
  intros (_ & _ & He) Hij Ej (R & Hc & Hi & Hn) Cm I Fo.
  assert (E : rolled ind m start = [zero_token start m] /\ roll_is ind m is = ind :: is) by (unfold rolled, roll_is; destruct (Z.ltb_spec ind (Z.of_N (m_column m))); [auto|lia]).
  destruct E as [E1 E2].
  assert (Hj : (0 <= j <= ind + 9)%Z) by (rewrite Ej; unfold inner; destruct (Z.ltb_spec ind 0); lia).
  pose proof Fo as (Er & Sr & Kr).
  destruct (He is ind q ks rest r k m Cm ltac:(lia)) as (m' & l & ks' & G & A & C & S & Pl).
  { rewrite E2. unfold space, ReadFlow.room in *. cbn [length]. repeat split; lia. }
  { exact I. }
  { split; [exact Er|]. split; [exact Sr|]. left. destruct Kr as [[K1 K2]|(K1 & -> & _)]; lia. }
  rewrite E1, E2 in G. exists m', l, ks'. split; [|auto].
  eapply leads_trans; [exact G|].
  replace (q ++ zero_token start m :: l ++ [zero_token TBlockEnd m']) with ((q ++ [zero_token start m] ++ l) ++ [zero_token TBlockEnd m']) by (rewrite <- !app_assoc; reflexivity).
  apply leads_alike. destruct Kr as [[K1 K2]|(K1 & -> & De)].
  - apply alike_unroll; [exact Sr|lia|]. cbn [unroll]. destruct (Z.ltb_spec ind j); [|lia]. destruct is; cbn [unroll]; destruct (Z.ltb_spec ind ind); try lia; reflexivity.
  - subst ind. rewrite (Hn eq_refl). rewrite Ej. destruct S as (I2 & k2 & kr2 & Es2 & D2). apply (alike_end enc nest r m' _ true ks' k2 kr2 De C Es2). unfold soft. rewrite D2. reflexivity.
Qed.

Lemma pad_reads white comp j t m q is ind al ks : starts t -> (0 <= j)%Z -> pad_ok white comp j -> gap_ok comp al m -> idle m ks ->
  exists m1, leads (st (pad g comp j ++ t) m 0 q is ind al ks) (st t m1 0 q is ind true ks) /\ adv (pad g comp j ++ t) m t m1 /\ Z.of_N (m_column m1) = j /\ idle m1 ks.
Proof.
  intros S Hj Ok G I. destruct comp as [c|]; cbn [pad pad_ok gap_ok] in *.
  - destruct G as [-> G]. exists (next_column (N.of_nat (Z.to_nat (j - c))) m). split; [apply leads_alike; exact (alike_spaces enc nest (Z.to_nat (j - c)) t m 0 q is ind true ks S)|].
    split; [apply adv_spaces|]. split; [cbn [next_column m_column]; lia|]. eapply idle_later; [|exact I]. reflexivity.
  - destruct brk_last as (u & x & Eb & Bx & W).
    assert (Wt : white_text (break_chars g ++ spaces j)) by (apply Forall_app; split; [exact W|apply spaces_white]).
    destruct (alike_gap enc nest _ t m 0 q is ind al ks S Wt) as (m' & A & C & L & Al).
    assert (Ex : existsb is_break (break_chars g ++ spaces j) = true) by (rewrite Eb, <- app_assoc, flat_app; cbn [app existsb]; rewrite Bx; apply orb_true_r).
    rewrite Ex in L, Al. cbn [andb] in Al. change (fl 0) with false in Al. cbn [negb] in Al. rewrite orb_true_r in Al.
    exists m'. split; [apply leads_alike; exact Al|]. split; [exact A|]. split; [|eapply idle_later; [|exact I]; lia].
    rewrite C, Eb, <- app_assoc. cbn [app]. unfold spaces. rewrite wcol_break by exact Bx. lia.
Qed.
Lemma inner_ok ind : (-1 <= ind)%Z -> (ind < inner g ind)%Z /\ (0 <= inner g ind)%Z.
Proof. intros H. unfold inner. destruct (Z.ltb_spec ind 0); lia. Qed.
Lemma kind_not_flow mapping : kind_of mapping <> Flow.
Proof. destruct mapping; discriminate. Qed.

(* a block collection without an anchor or a tag *)
Lemma bare_block h mapping ind white comp start w nl (P : list tok -> Prop) x : pad_ok white comp (inner g ind) -> entries_reads h (inner g ind) start w nl P -> height x = S h ->
  (forall ts, P ts -> content common e (kind_of mapping) None None (start :: ts ++ [TBlockEnd]) x) -> block_reads mapping ind comp x (pad g comp (inner g ind) ++ w) nl.
Proof.
  intros Ok E Hh Cn is q al ks rest r k m Sp I Col G Fo. rewrite Hh in Sp. pose proof Sp as (_ & _ & Hi & _). destruct (inner_ok ind Hi) as [J1 J2]. rewrite <- app_assoc.
  destruct (pad_reads white comp (inner g ind) (w ++ rest) m q is ind al ks) as (m1 & G1 & A1 & C1 & I1); auto.
  { apply starts_app; apply E. }
  destruct (nested h ind (inner g ind) start w nl P is q ks rest r k m1 E J1 eq_refl Sp C1 I1 Fo) as (m2 & l & ks2 & G2 & A2 & C2 & S2 & Pl).
  eexists m2, _, ks2. split; [eapply leads_trans; [exact G1|exact G2]|]. split; [eapply adv_trans; [exact A1|exact A2]|]. split; [exact C2|]. split; [exact S2|].
  apply O_some. cbn [map]. rewrite map_app. apply (N_content common e _ [] None None); [constructor|]. apply Cn. exact Pl.
Qed.
(* ... and with one *)
Lemma full_block h mapping ind white comp start w nl (P : list tok -> Prop) x a t pw pt : ptext e a t pw pt -> pw <> [] -> entries_reads h (inner g ind) start w nl P -> height x = S h ->
  (forall ts, P ts -> content common e (kind_of mapping) a t (start :: ts ++ [TBlockEnd]) x) -> block_reads mapping ind comp x (gap_text white ++ pw ++ pad g None (inner g ind) ++ w) nl.
Proof.
  intros Pt Np E Hh Cn is q al ks rest r k m Sp I Col G Fo. rewrite Hh in Sp. pose proof Sp as (R & _ & Hi & _). destruct (inner_ok ind Hi) as [J1 J2].
  replace ((gap_text white ++ pw ++ pad g None (inner g ind) ++ w) ++ rest) with (gap_text white ++ pw ++ pad g None (inner g ind) ++ w ++ rest) by (rewrite <- !app_assoc; reflexivity).
  destruct (props_block a t pw pt ind white is q al ks (pad g None (inner g ind) ++ w ++ rest) m Pt Np) as (m0 & l0 & ks0 & G0 & A0 & I0 & T0); auto.
  { cbn [pad]. rewrite <- app_assoc. apply break_blankz. }
  { exact (room_fits _ _ _ _ R). }
  destruct (pad_reads white None (inner g ind) (w ++ rest) m0 (q ++ l0) is ind false ks0) as (m1 & G1 & A1 & C1 & I1); auto.
  { apply starts_app; apply E. }
  { exact Logic.I. }
  { exact Logic.I. }
  destruct (nested h ind (inner g ind) start w nl P is (q ++ l0) ks0 rest r k m1 E J1 eq_refl Sp C1 I1 Fo) as (m2 & l & ks2 & G2 & A2 & C2 & S2 & Pl).
  eexists m2, _, ks2. split; [eapply leads_trans; [exact G0|]; eapply leads_trans; [exact G1|]; rewrite <- (app_assoc q) in G2; exact G2|].
  split; [eapply adv_trans; [exact A0|]; eapply adv_trans; [exact A1|exact A2]|]. split; [exact C2|]. split; [exact S2|].
  apply O_some. rewrite map_app, T0. cbn [map]. rewrite map_app. apply (N_content common e _ pt a t); [exact (ptext_props e a t pw pt Pt)|]. apply Cn. exact Pl.
Qed.
(* an indentless sequence *)
Lemma loose ind w nl xs is q ks rest r k m : entries_reads (heights xs) ind TBlockSeqStart w nl (seq_entries xs) -> (0 <= ind)%Z -> space is ind (S (heights xs)) -> Z.of_N (m_column m) = ind -> idle m ks -> block_follow ind nl rest r k ->
  exists m' l ks', leads (st (w ++ rest) m 0 q is ind true ks) (st r m' 0 (q ++ l) is ind true ks') /\ adv (w ++ rest) m r m' /\ m_column m' = N.of_nat k /\ spent m' ks' /\ indentless common e (map t_tok l) xs.
Proof.
  intros (_ & _ & He) Hi Sp Cm I Fo. destruct (roll_again m ind TBlockSeqStart is Cm) as [R1 R2].
  destruct (He is ind q ks rest r k m Cm ltac:(lia)) as (m' & l & ks' & G & A & C & S & _ & Pl); [rewrite R2; eapply space_less; [|exact Sp]; lia|exact I|exact Fo|].
  rewrite R1, R2 in G. cbn [app] in G. exists m', l, ks'. auto.
Qed.
Lemma indentless_block ind xs w nl : (0 <= ind)%Z -> entries_reads (heights xs) ind TBlockSeqStart w nl (seq_entries xs) -> block_reads true ind None (Sequence None None true BlockColl xs) (pad g None ind ++ w) nl.
Proof.
  intros Hi E is q al ks rest r k m Sp I Col G Fo. rewrite <- app_assoc.
  destruct (pad_reads true None ind (w ++ rest) m q is ind al ks) as (m1 & G1 & A1 & C1 & I1); auto.
  { apply starts_app; apply E. }
  destruct (loose ind w nl xs is q ks rest r k m1 E Hi Sp C1 I1 Fo) as (m2 & l & ks2 & G2 & A2 & C2 & S2 & Pl).
  exists m2, l, ks2. split; [eapply leads_trans; [exact G1|exact G2]|]. split; [eapply adv_trans; [exact A1|exact A2]|]. split; [exact C2|]. split; [exact S2|].
  apply O_some. apply (N_content common e _ [] None None); [constructor|]. apply C_indentless. exact Pl.
Qed.
Lemma indentless_full ind white comp xs w nl a t pw pt : (0 <= ind)%Z -> ptext e a t pw pt -> pw <> [] -> entries_reads (heights xs) ind TBlockSeqStart w nl (seq_entries xs) ->
  block_reads true ind comp (Sequence a t (implicit_of t) BlockColl xs) (gap_text white ++ pw ++ pad g None ind ++ w) nl.
Proof.
  intros Hi Pt Np E is q al ks rest r k m Sp I Col G Fo. pose proof Sp as (R & _).
  replace ((gap_text white ++ pw ++ pad g None ind ++ w) ++ rest) with (gap_text white ++ pw ++ pad g None ind ++ w ++ rest) by (rewrite <- !app_assoc; reflexivity).
  destruct (props_block a t pw pt ind white is q al ks (pad g None ind ++ w ++ rest) m Pt Np) as (m0 & l0 & ks0 & G0 & A0 & I0 & T0); auto.
  { cbn [pad]. rewrite <- app_assoc. apply break_blankz. }
  { exact (room_fits _ _ _ _ R). }
  destruct (pad_reads white None ind (w ++ rest) m0 (q ++ l0) is ind false ks0) as (m1 & G1 & A1 & C1 & I1); auto.
  { apply starts_app; apply E. }
  { exact Logic.I. }
  { exact Logic.I. }
  destruct (loose ind w nl xs is (q ++ l0) ks0 rest r k m1 E Hi Sp C1 I1 Fo) as (m2 & l & ks2 & G2 & A2 & C2 & S2 & Pl).
  eexists m2, _, ks2. split; [eapply leads_trans; [exact G0|]; eapply leads_trans; [exact G1|]; rewrite <- (app_assoc q) in G2; exact G2|].
  split; [eapply adv_trans; [exact A0|]; eapply adv_trans; [exact A1|exact A2]|]. split; [exact C2|]. split; [exact S2|].
  apply O_some. rewrite map_app, T0. apply (N_content common e _ pt a t); [exact (ptext_props e a t pw pt Pt)|]. apply C_indentless. exact Pl.
Qed.

Scheme btext_mut := Minimality for TextGrammar.btext Sort Prop
  with bseq_mut := Minimality for TextGrammar.bseq Sort Prop
  with bmap_mut := Minimality for TextGrammar.bmap Sort Prop
  with bpair_mut := Minimality for TextGrammar.bpair Sort Prop.
Combined Scheme block_texts from btext_mut, bseq_mut, bmap_mut, bpair_mut.

Theorem block_reading :
  (forall mapping ind white comp x ws w nl, btext mapping ind white comp x ws w nl -> (-1 <= ind)%Z -> block_reads mapping ind comp x (ws ++ w) nl) /\
  (forall j xs w nl, bseq g e j xs w nl -> (0 <= j)%Z -> entries_reads (heights xs) j TBlockSeqStart w nl (seq_entries xs)) /\
  (forall j ps w nl, bmap g e j ps w nl -> (0 <= j)%Z -> entries_reads (pheights ps) j TBlockMapStart w nl (map_entries ps)) /\
  (forall j p w nl, bpair g e j p w nl -> (0 <= j)%Z -> entries_reads (Nat.max (height (fst p)) (height (snd p))) j TBlockMapStart w nl (pair_tokens (fst p) (snd p))).
Proof.
  apply block_texts.
  - intros mapping ind white comp x w ts Lf _. exact (leaf_block mapping ind white comp x w ts Lf).
  - intros mapping ind white comp x w Ct _. exact (coll_block mapping ind white comp x w Ct).
  - intros mapping ind white comp _. exact (null_block mapping ind comp).
  - intros mapping ind white comp a t pw pt P N _. exact (empty_block mapping ind white comp a t pw pt P N).
  - intros mapping ind white comp a t pw pt literal s d w P Ns Hd Hf D _. exact (scalar_block mapping ind white comp a t pw pt literal s d w P Ns Hd Hf D).
  - intros mapping ind white comp xs w nl Ok _ IH Hi. destruct (inner_ok ind Hi) as [_ J].
    eapply bare_block; [exact Ok|exact (IH J)|reflexivity|]. intros ts [P _]. apply (C_block_seq common e _ None None); [apply kind_not_flow|exact P].
  - intros mapping ind white comp a t pw pt xs w nl P N _ IH Hi. destruct (inner_ok ind Hi) as [_ J].
    eapply full_block; [exact P|exact N|exact (IH J)|reflexivity|]. intros ts [Pl _]. apply C_block_seq; [apply kind_not_flow|exact Pl].
  - intros ind white xs w nl Hi _ IH _. exact (indentless_block ind xs w nl Hi (IH Hi)).
  - intros ind white comp a t pw pt xs w nl Hi P N _ IH _. exact (indentless_full ind white comp xs w nl a t pw pt Hi P N (IH Hi)).
  - intros mapping ind white comp ps w nl Ok _ IH Hi. destruct (inner_ok ind Hi) as [_ J].
    eapply bare_block; [exact Ok|exact (IH J)|reflexivity|]. intros ts P. apply (C_block_map common e _ None None); [apply kind_not_flow|exact P].
  - intros mapping ind white comp a t pw pt ps w nl P N _ IH Hi. destruct (inner_ok ind Hi) as [_ J].
    eapply full_block; [exact P|exact N|exact (IH J)|reflexivity|]. intros ts Pl. apply C_block_map; [apply kind_not_flow|exact Pl].
  - intros j x ws w nl D IH Hj. apply one_entry; [exact Hj|apply IH; lia|exact D].
  - intros j x xs ws w nl w' nl' D IH _ IHs Hj. apply more_entries; [exact Hj|apply IH; lia|exact D|exact (IHs Hj)].
  - intros j [k v] w nl _ IH Hj. apply one_pair. exact (IH Hj).
  - intros j [k v] ps w nl w' nl' _ IH _ IHs Hj. apply more_pairs; [exact Hj|exact (IH Hj)|exact (IHs Hj)].
  - intros j k v kw tail ws w nl K D IH Hj. apply simple_pair; [exact Hj|exact K|apply IH; lia|exact D].
  - intros j k v ks kw knl ws w nl Dk IHk D IH Hj. apply explicit_pair; [exact Hj|apply IHk; lia|exact Dk|apply IH; lia|exact D].
Qed.
End Block.
