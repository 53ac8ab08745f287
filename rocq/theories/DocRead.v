(* Reading the text of a stream of documents. *)
From Verif Require Import Base ReaderModel Utf8Spec CharSpec Types CursorModel ScanModel ScannerModel CursorProofs ScanProofs ScanQuoted ScannerSpec ScannerInv PlanFree FullRun WriterModel WriterSpec PenModel PenText TreeSpec EmitSpec AgreeSpec GrammarSpec ParserComplete RoundSpec EagerScan TagRun DoubleTrip SingleTrip PlainTrip BlockTrip ScanStep EagerInv TextGrammar ReadLeaf ReadFlow ReadBlock DocText.

(* ---- no node contains the end of the stream ---- *)
Definition inside (ts : list tok) : Prop := Forall (fun t => t <> TStreamEnd) ts.
Lemma inside_app a b : inside a -> inside b -> inside (a ++ b).
Proof. intros A B. apply Forall_app. split; assumption. Qed.
Lemma inside_cons t a : t <> TStreamEnd -> inside a -> inside (t :: a).
Proof. constructor; assumption. Qed.
Lemma properties_inside e ts a t : properties e ts a t -> inside ts.
Proof. intros H; inversion H; subst; repeat (apply inside_cons; [discriminate|]); constructor. Qed.
Lemma opt_properties_inside e ts a t : opt_properties e ts a t -> inside ts.
Proof. intros H; inversion H; subst; [constructor|eapply properties_inside; eassumption]. Qed.
Lemma opt_node_inside e k ts x : opt_node common e k ts x -> inside ts.
Proof.
  apply (opt_node_m common e (fun _ ts _ => inside ts) (fun _ _ _ ts _ => inside ts) (fun _ ts _ => inside ts) (fun _ ts _ => inside ts) (fun ts _ => inside ts) (fun ts _ => inside ts) (fun ts _ => inside ts) (fun ts _ => inside ts) (fun ts _ => inside ts) (fun ts _ => inside ts) (fun ts _ => inside ts)); intros;
  repeat first [assumption | apply inside_app | apply inside_cons; [discriminate|] | apply Forall_nil | eapply properties_inside; eassumption | eapply opt_properties_inside; eassumption | discriminate].
Qed.

Lemma directives_inside ts v dirs : directives ts v dirs -> inside ts.
Proof. intros (H & _). eapply Forall_impl; [|exact H]. intros t D ->. discriminate D. Qed.
Lemma repeat_inside t n : t <> TStreamEnd -> inside (repeat t n).
Proof. intros H. induction n; constructor; auto. Qed.
Lemma documents_inside ts ds : explicit_documents common ts ds -> inside ts.
Proof.
  induction 1 as [|ts x rs xs D _ IH]; [constructor|]. apply inside_app; [|exact IH]. inversion D as [ds v dirs ns y n Hd Hn]; subst.
  apply inside_app; [eapply directives_inside; exact Hd|]. apply inside_cons; [discriminate|]. apply inside_app; [eapply opt_node_inside; exact Hn|apply repeat_inside; discriminate].
Qed.
Lemma opt_node_node e k ts x : opt_node common e k ts x -> x <> null -> node common e k ts x.
Proof. intros H N. inversion H; subst; [contradiction|assumption]. Qed.

(* ---- the directives of a document ---- *)
Lemma directive_tokens_ok v tags : valid_directives v tags -> directives (directive_tokens v tags) v (utf8_tags tags).
Proof.
  intros (Hv & Ht & Nd). unfold directive_tokens.
  assert (A : forall l, Forall (fun t => is_directive t = true) (map (fun t : tagdir => TTagDirective (utf8 (fst t)) (utf8 (snd t))) l)) by (induction l; constructor; auto).
  assert (V : forall l, versions (map (fun t : tagdir => TTagDirective (utf8 (fst t)) (utf8 (snd t))) l) = []) by (induction l; auto).
  assert (T : forall l, tag_directives (map (fun t : tagdir => TTagDirective (utf8 (fst t)) (utf8 (snd t))) l) = utf8_tags l) by (induction l as [|t l IH]; [reflexivity|cbn; f_equal; exact IH]).
  assert (N : NoDup (map fst (utf8_tags tags))).
  { assert (E : map fst (utf8_tags tags) = map fst tags); [|rewrite E; exact Nd]. unfold utf8_tags. rewrite map_map. apply map_ext_in. intros [h p] I. cbn [fst].
    rewrite Forall_forall in Ht. destruct (Ht _ I) as [Vh _]. cbn [fst] in Vh. apply utf8_ascii. destruct Vh as [->|(name & -> & F)]; [repeat constructor; lia|].
    constructor; [lia|]. apply Forall_app. split; [eapply Forall_impl; [|exact F]; intros c; apply alpha_ascii|repeat constructor; lia]. }
  destruct v as [[a b]|]; cbn [app].
  - destruct (Hv a b eq_refl) as [-> Hb]. split; [constructor; [reflexivity|apply A]|]. split; [cbn; rewrite V; reflexivity|]. split; [destruct Hb as [-> | ->]; [left|right]; reflexivity|]. split; [cbn; rewrite T; reflexivity|exact N].
  - split; [apply A|]. split; [apply V|]. split; [exact Logic.I|]. split; [symmetry; apply T|exact N].
Qed.

Section Docs.
Variables (enc : encoding) (nest : Z) (g : cfg).
Hypothesis B : g_break g <> AnyBreak.
Hypothesis Hind : (2 <= g_indent g <= 9)%Z.
Hypothesis Hnest : (nest <= Z.of_N INT_MAX)%Z.
Hypothesis Hfits : fits nest [] 0.
Notation st := (st enc nest).

(* at the beginning of a line, no key is possible *)
Definition at_line (m : mark) (ks : list skey) : Prop := m_column m = 0 /\ spent m ks.
Lemma spent_key m ks : spent m ks -> exists k kr, stale m ks = inl (k :: kr) /\ soft k /\ idle m (k :: kr).
Proof. intros [I _]. destruct (idle_stale m ks I) as (k & kr & E & I' & _). exists k, kr. split; [exact E|]. split; [exact (harmless_soft m k kr I')|exact I']. Qed.
Lemma killed m m' k kr : idle m (k :: kr) -> m_line m <= m_line m' -> spent m' (kill k :: kr).
Proof.
  intros I L. apply spent_dead; [|reflexivity]. split; [discriminate|]. destruct (idle_later m m' _ L I) as [_ T]. inversion T; subst. constructor; [intros H; discriminate H|assumption].
Qed.
Lemma starts_no_lf t : starts t -> g_break g = CrBreak -> nth 0 t 0 <> 0xA.
Proof. intros (_ & Hb & _) _ E. rewrite E in Hb. discriminate Hb. Qed.
Lemma starts_char c t : (c =? 0x25) || (c =? 0x2D) || (c =? 0x2E) = true -> starts (c :: t).
Proof. intros H. unfold starts. cbn [nth]. unfold is_blank, is_space, is_tab, is_break. repeat split; lia. Qed.
(* one directive *)
Lemma directive_read w t tk q al ks m :
  (exists tk0 e, scan_directive (fc (w ++ t) m) = COk tk0 (fc t e) /\ t_tok tk0 = tk /\ m_column e = 0 /\ m_line m < m_line e) -> nth 0 (w ++ t) 0 = 0x25 -> at_line m ks ->
  exists m' l al' ks', leads (st (w ++ t) m 0 q [] (-1)%Z al ks) (st t m' 0 (q ++ l) [] (-1)%Z al' ks') /\ at_line m' ks' /\ map t_tok l = [tk].
Proof.
  intros (tk0 & e & E & T & C & L) H0 [C0 S]. destruct (spent_key m ks S) as (k & kr & Es & Sk & I).
  destruct (w ++ t) as [|c r]; [discriminate H0|]. cbn in H0. subst c.
  pose proof (directive_step enc nest r m q al ks k kr t e tk0 C0 Hfits Es Sk E) as G.
  exists e, [tk0], false, (kill k :: kr). split; [exact G|]. split; [split; [exact C|apply (killed m); [exact I|lia]]|]. cbn. rewrite T. reflexivity.
Qed.
Lemma tags_read tags : Forall (fun t => valid_handle (fst t) /\ snd t <> []) tags -> prefixes_ok tags -> forall rest q al ks m, starts rest -> at_line m ks ->
  exists m' l al' ks', leads (st (flat_map (tag_line g) tags ++ rest) m 0 q [] (-1)%Z al ks) (st rest m' 0 (q ++ l) [] (-1)%Z al' ks') /\ at_line m' ks' /\
    map t_tok l = map (fun t => TTagDirective (utf8 (fst t)) (utf8 (snd t))) tags.
Proof.
  induction tags as [|t tags IH]; intros V P rest q al ks m S A.
  - exists m, [], al, ks. rewrite app_nil_r. split; [apply leads_refl|]. auto.
  - inversion V as [|? ? [V1 V2] V3]; subst. inversion P as [|? ? [P1 P2] P3]; subst. cbn [flat_map]. rewrite <- app_assoc.
    assert (S1 : starts (flat_map (tag_line g) tags ++ rest)) by (destruct tags; [exact S|exact (starts_char 0x25 _ eq_refl)]).
    destruct (directive_read (tag_line g t) (flat_map (tag_line g) tags ++ rest) (TTagDirective (utf8 (fst t)) (utf8 (snd t))) q al ks m) as (m1 & l1 & al1 & ks1 & G1 & A1 & T1); [|reflexivity|exact A|].
    { apply tag_run; auto. apply starts_no_lf. exact S1. }
    destruct (IH V3 P3 rest (q ++ l1) al1 ks1 m1 S A1) as (m2 & l2 & al2 & ks2 & G2 & A2 & T2). exists m2, (l1 ++ l2), al2, ks2.
    rewrite <- app_assoc in G2. split; [eapply leads_trans; eassumption|]. split; [exact A2|]. rewrite map_app, T1, T2. reflexivity.
Qed.
Lemma directives_read v tags rest q al ks m : valid_directives v tags -> prefixes_ok tags -> starts rest -> at_line m ks ->
  exists m' l al' ks', leads (st (directive_lines g v tags ++ rest) m 0 q [] (-1)%Z al ks) (st rest m' 0 (q ++ l) [] (-1)%Z al' ks') /\ at_line m' ks' /\ map t_tok l = directive_tokens v tags.
Proof.
  intros (Vv & Vt & _) P S A. unfold directive_lines, directive_tokens. destruct v as [[a b]|]; [|exact (tags_read tags Vt P rest q al ks m S A)].
  destruct (Vv a b eq_refl) as [-> Hb]. rewrite <- app_assoc.
  assert (S1 : starts (flat_map (tag_line g) tags ++ rest)) by (destruct tags; [exact S|exact (starts_char 0x25 _ eq_refl)]).
  destruct (directive_read (yaml_line g (1, b)) (flat_map (tag_line g) tags ++ rest) (TVersion 1 b) q al ks m) as (m1 & l1 & al1 & ks1 & G1 & A1 & T1); [|reflexivity|exact A|].
  { exact (yaml_run g (1, b) _ m B (starts_no_lf _ S1) ltac:(cbn; lia) ltac:(cbn; lia)). }
  destruct (tags_read tags Vt P rest (q ++ l1) al1 ks1 m1 S A1) as (m2 & l2 & al2 & ks2 & G2 & A2 & T2). exists m2, (l1 ++ l2), al2, ks2.
  rewrite <- app_assoc in G2. split; [eapply leads_trans; eassumption|]. split; [exact A2|]. rewrite map_app, T1, T2. reflexivity.
Qed.

(* ---- document markers ---- *)
Lemma break_read t q al ks m m0 : starts t -> m_line m0 <= m_line m -> idle m0 ks ->
  exists m', leads (st (break_chars g ++ t) m 0 q [] (-1)%Z al ks) (st t m' 0 q [] (-1)%Z true ks) /\ at_line m' ks.
Proof.
  intros S L I. destruct (brk_last g B) as (u & x & Eb & Bx & W).
  destruct (alike_gap enc nest (break_chars g) t m 0 q [] (-1)%Z al ks S W) as (m' & A & C & Ln & Al).
  assert (Ex : existsb is_break (break_chars g) = true) by (rewrite Eb, flat_app; cbn [existsb]; rewrite Bx; apply orb_true_r). rewrite Ex in Ln, Al. change (fl 0) with false in Al. cbn [negb andb] in Al. rewrite orb_true_r in Al.
  exists m'. split; [apply leads_alike; exact Al|]. split; [|eapply spent_line; [|exact I]; lia]. rewrite C, Eb. exact (wcol_break u x 0 (m_column m) Bx).
Qed.
Lemma dots_read n : forall rest q al ks m, starts rest -> at_line m ks ->
  exists m' l al' ks', leads (st (dots g n ++ rest) m 0 q [] (-1)%Z al ks) (st rest m' 0 (q ++ l) [] (-1)%Z al' ks') /\ at_line m' ks' /\ map t_tok l = repeat TDocEnd n.
Proof.
  induction n as [|n IH]; intros rest q al ks m S A.
  - exists m, [], al, ks. rewrite app_nil_r. split; [apply leads_refl|]. auto.
  - unfold dots. cbn [repeat concat]. fold (dots g n). rewrite <- !app_assoc. destruct A as [C Sp]. destruct (spent_key m ks Sp) as (k & kr & Es & Sk & I).
    assert (S1 : starts (dots g n ++ rest)) by (destruct n; [exact S|exact (starts_char 0x2E _ eq_refl)]).
    pose proof (marker_step enc nest 0x2E TDocEnd (break_chars g ++ dots g n ++ rest) m q al ks k kr (or_intror (conj eq_refl eq_refl)) (break_blankz g B _) C Hfits Es Sk) as G1.
    destruct (break_read (dots g n ++ rest) (q ++ [mkToken TDocEnd m (next_column 3 m) false]) false (kill k :: kr) (next_column 3 m) m S1) as (m2 & G2 & A2); [cbn; lia|exact (proj1 (killed m m k kr I ltac:(lia)))|].
    destruct (IH rest (q ++ [mkToken TDocEnd m (next_column 3 m) false]) true (kill k :: kr) m2 S A2) as (m3 & l3 & al3 & ks3 & G3 & A3 & T3).
    exists m3, (mkToken TDocEnd m (next_column 3 m) false :: l3), al3, ks3. rewrite <- app_assoc in G3.
    split; [eapply leads_trans; [exact G1|]; eapply leads_trans; [exact G2|exact G3]|]. split; [exact A3|]. cbn. rewrite T3. reflexivity.
Qed.

(* ---- documents ---- *)
Lemma root_starts e x ws w nl : btext g e false (-1)%Z true (Some 0%Z) x ws w nl -> x <> null -> ws = [] /\ w <> [] /\ starts w.
Proof.
  intros T N. destruct (block_reading enc nest g e B Hind Hnest) as (_ & Rs & Rm & _). inversion T; subst.
  - match goal with H : leaf _ _ _ _ _ _ _ |- _ => rename H into Lf end. split; [reflexivity|].
    assert (Fo : block_follow g (-1)%Z false (break_chars g) [] 0) by (split; [symmetry; apply app_nil_r|]; split; [repeat split; discriminate|]; right; repeat split; left; reflexivity).
    pose proof (follow_text g B _ _ _ _ Fo) as (ws & u & y & _ & _ & _ & _ & _ & En).
    destruct (width_pos g ltac:(lia) (-1)%Z ltac:(lia)) as [W1 W2].
    destruct (leaf_chain enc nest g e B false _ x w _ 0 (-1)%Z ws [] mark0 Lf eq_refl W1 (or_intror W2) ltac:(right; cbn; lia) En) as (Nw & Sw & _). auto.
  - split; [reflexivity|]. match goal with H : ctext _ _ _ _ _ |- _ => destruct (coll_read enc nest g e B ltac:(lia) Hnest _ _ _ H ltac:(lia)) as (Nw & Sw & _) end. auto.
  - contradiction N; reflexivity.
  - split; [reflexivity|]. split; [assumption|]. eapply ptext_starts; eassumption.
  - split; [reflexivity|]. match goal with H : ptext _ _ _ _ _ |- _ => rename H into P end. destruct pw as [|y pw]; cbn [sep app].
    + split; [discriminate|]. destruct literal; repeat split; discriminate.
    + split; [discriminate|]. change (y :: pw ++ ?r) with ((y :: pw) ++ r). apply starts_app; [discriminate|]. eapply ptext_starts; [exact P|discriminate].
  - split; [reflexivity|]. match goal with H : bseq _ _ _ _ _ _ |- _ => destruct (Rs _ _ _ _ H ltac:(cbn; lia)) as (Sw & Nw & _) end. auto.
  - split; [reflexivity|]. split; [destruct pw; [contradiction|discriminate]|]. apply starts_app; [assumption|]. eapply ptext_starts; eassumption.
  - split; [reflexivity|]. match goal with H : bmap _ _ _ _ _ _ |- _ => destruct (Rm _ _ _ _ H ltac:(cbn; lia)) as (Sw & Nw & _) end. auto.
  - split; [reflexivity|]. split; [destruct pw; [contradiction|discriminate]|]. apply starts_app; [assumption|]. eapply ptext_starts; eassumption.
Qed.
Lemma dots_end n rest : (n = O -> document_ends rest) -> document_ends (dots g n ++ rest).
Proof.
  intros H. destruct n as [|n]; [exact (H eq_refl)|]. right. unfold dots. cbn [repeat concat]. rewrite <- !app_assoc. exists 0x2E, (break_chars g ++ concat (repeat (dot3 ++ break_chars g) n) ++ rest).
  split; [right; reflexivity|]. split; [reflexivity|]. apply (break_blankz g B).
Qed.
Lemma docs_starts ds w : docs_text g ds w -> starts w.
Proof.
  intros D. destruct D as [|v tags line x ws w nl n rest ds]; [repeat split; discriminate|]. destruct v as [v|]; [exact (starts_char 0x25 _ eq_refl)|]. destruct tags as [|t tags]; [exact (starts_char 0x2D _ eq_refl)|exact (starts_char 0x25 _ eq_refl)].
Qed.
Definition low (d : doc_tree) : Prop := room nest [] 0 (height (dt_root d)) /\ (9 * Z.of_nat (height (dt_root d)) <= Z.of_N INT_MAX)%Z.
Lemma low_space d : low d -> space nest [] (-1)%Z (height (dt_root d)).
Proof. unfold low, space, room. cbn [length]. intros [H1 H2]. repeat split; try lia. Qed.

Lemma root_read e white comp x ws w nl r q al ks m : btext g e false (-1)%Z white comp x ws w nl -> space nest [] (-1)%Z (height x) -> idle m ks -> gap_ok comp al m -> document_ends r ->
  exists m' l ks', leads (st (ws ++ w ++ brk g nl ++ r) m 0 q [] (-1)%Z al ks) (st r m' 0 (q ++ l) [] (-1)%Z true ks') /\ at_line m' ks' /\ opt_node common e Block (map t_tok l) x.
Proof.
  intros T Sp I G D. destruct (block_reading enc nest g e B Hind Hnest) as (R & _).
  destruct (R false (-1)%Z white comp x ws w nl T ltac:(lia) [] q al ks (brk g nl ++ r) r O m Sp I ltac:(lia) G) as (m' & l & ks' & L & _ & C & S & O).
  { split; [reflexivity|]. split; [apply ends_starts; exact D|]. right. auto. }
  exists m', l, ks'. rewrite <- app_assoc in L. split; [exact L|]. split; [split; [exact C|exact S]|exact O].
Qed.
Lemma document_read e (line : bool) x ws w nl n rest q ks al m : btext g e false (-1)%Z line (if line then Some 0%Z else None) x ws w nl -> (line = true -> x <> null) -> space nest [] (-1)%Z (height x) ->
  (n = O -> document_ends rest) -> starts rest -> at_line m ks ->
  exists m' l al' ks', leads (st (dash3 ++ (if line then break_chars g else []) ++ ws ++ w ++ brk g nl ++ dots g n ++ rest) m 0 q [] (-1)%Z al ks) (st rest m' 0 (q ++ l) [] (-1)%Z al' ks') /\ at_line m' ks' /\
    exists ts, map t_tok l = TDocStart :: ts ++ repeat TDocEnd n /\ opt_node common e Block ts x.
Proof.
  intros T N Sp D S [C A]. destruct (spent_key m ks A) as (k & kr & Es & Sk & I). pose proof (dots_end n rest D) as De.
  set (tail := brk g nl ++ dots g n ++ rest). set (tk := mkToken TDocStart m (next_column 3 m) false).
  assert (Bz : is_blankz (nth 0 ((if line then break_chars g else []) ++ ws ++ w ++ tail) 0) = true).
  { destruct line; [apply (break_blankz g B)|]. cbn [app]. rewrite (app_assoc ws). eapply (block_blankz g _ B _ _ _ _ _ _ _ _ (dots g n ++ rest) 0); [exact T|]. split; [reflexivity|]. split; [apply ends_starts; exact De|]. right. auto. }
  pose proof (marker_step enc nest 0x2D TDocStart ((if line then break_chars g else []) ++ ws ++ w ++ tail) m q al ks k kr (or_introl (conj eq_refl eq_refl)) Bz C Hfits Es Sk) as G1. fold tk in G1.
  assert (G2 : exists m2 al2, leads (st ((if line then break_chars g else []) ++ ws ++ w ++ tail) (next_column 3 m) 0 (q ++ [tk]) [] (-1)%Z false (kill k :: kr)) (st (ws ++ w ++ tail) m2 0 (q ++ [tk]) [] (-1)%Z al2 (kill k :: kr)) /\
     idle m2 (kill k :: kr) /\ gap_ok (if line then Some 0%Z else None) al2 m2).
  { destruct (killed m (next_column 3 m) k kr I ltac:(cbn; lia)) as [I2 _]. destruct line.
    - destruct (root_starts _ _ _ _ _ T (N eq_refl)) as (-> & Nw & Sw). cbn [app].
      destruct (break_read (w ++ tail) (q ++ [tk]) false (kill k :: kr) (next_column 3 m) (next_column 3 m) (starts_app _ _ Nw Sw) ltac:(lia) I2) as (m2 & G2 & C2 & S2).
      exists m2, true. split; [exact G2|]. split; [apply S2|]. split; [reflexivity|]. rewrite C2. reflexivity.
    - exists (next_column 3 m), false. split; [apply leads_refl|]. split; [exact I2|exact Logic.I]. }
  destruct G2 as (m2 & al2 & G2 & I2 & Gp).
  destruct (root_read e line _ x ws w nl (dots g n ++ rest) (q ++ [tk]) al2 _ m2 T Sp I2 Gp De) as (m3 & l3 & ks3 & G3 & A3 & O3).
  destruct (dots_read n rest ((q ++ [tk]) ++ l3) true ks3 m3 S A3) as (m4 & l4 & al4 & ks4 & G4 & A4 & T4).
  exists m4, (tk :: l3 ++ l4), al4, ks4. split; [|split; [exact A4|]].
  - replace (q ++ tk :: l3 ++ l4) with (((q ++ [tk]) ++ l3) ++ l4) by (rewrite <- !app_assoc; reflexivity).
    eapply leads_trans; [exact G1|]. eapply leads_trans; [exact G2|]. eapply leads_trans; [exact G3|exact G4].
  - exists (map t_tok l3). split; [|exact O3]. cbn. rewrite map_app, T4. reflexivity.
Qed.
Theorem docs_read ds w : docs_text g ds w -> Forall low ds -> forall q al ks m, at_line m ks ->
  exists m' l al' ks', leads (st w m 0 q [] (-1)%Z al ks) (st [] m' 0 (q ++ l) [] (-1)%Z al' ks') /\ at_line m' ks' /\ explicit_documents common (map t_tok l) ds.
Proof.
  induction 1 as [|v tags line x ws w nl n rest ds V P T N D Ds IH]; intros Lo q al ks m A.
  - exists m, [], al, ks. rewrite app_nil_r. split; [apply leads_refl|]. split; [exact A|constructor].
  - inversion Lo as [|? ? L0 L1]; subst. pose proof (docs_starts _ _ Ds) as Sr.
    destruct (directives_read v tags (dash3 ++ (if line then break_chars g else []) ++ ws ++ w ++ brk g nl ++ dots g n ++ rest) q al ks m V P (starts_char 0x2D _ eq_refl) A) as (m1 & l1 & al1 & ks1 & G1 & A1 & T1).
    destruct (document_read _ line x ws w nl n rest (q ++ l1) ks1 al1 m1 T N (low_space _ L0) D Sr A1) as (m2 & l2 & al2 & ks2 & G2 & A2 & ts & T2 & O2).
    destruct (IH L1 ((q ++ l1) ++ l2) al2 ks2 m2 A2) as (m3 & l3 & al3 & ks3 & G3 & A3 & E3).
    exists m3, ((l1 ++ l2) ++ l3), al3, ks3. replace (q ++ (l1 ++ l2) ++ l3) with (((q ++ l1) ++ l2) ++ l3) by (rewrite <- !app_assoc; reflexivity). split; [eapply leads_trans; [exact G1|]; eapply leads_trans; [exact G2|exact G3]|]. split; [exact A3|].
    rewrite map_app, map_app, T1, T2. apply Docs_some; [|exact E3]. apply ExplicitDoc; [apply directive_tokens_ok; exact V|exact O2].
Qed.
Theorem stream_read ds w : stream_text g ds w -> Forall low ds ->
  exists n final, eager n (eager_start enc nest w) final /\ at_end final /\ stream common (map t_tok (s_tokens final)) (mkStreamTree enc ds).
Proof.
  intros T Lo. set (q0 := [zero_token (TStreamStart enc) mark0]).
  assert (A0 : at_line mark0 [key0]) by (split; [reflexivity|apply spent_dead; [|reflexivity]; split; [discriminate|constructor; [discriminate|constructor]]]).
  assert (R : exists m l al ks, leads (st w mark0 0 q0 [] (-1)%Z true [key0]) (st [] m 0 (q0 ++ l) [] (-1)%Z al ks) /\ at_line m ks /\ inside (map t_tok l) /\
     stream common (TStreamStart enc :: map t_tok l ++ [TStreamEnd]) (mkStreamTree enc ds)).
  { destruct T as [ds w T|x ws w nl n rest ds T N D T2].
    - destruct (docs_read ds w T Lo q0 true [key0] mark0 A0) as (m & l & al & ks & G & A & E). exists m, l, al, ks. split; [exact G|]. split; [exact A|]. split; [exact (documents_inside _ _ E)|]. constructor. exact E.
    - inversion Lo as [|? ? L0 L1]; subst. pose proof (docs_starts _ _ T2) as Sr.
      destruct (root_read _ true (Some 0%Z) x ws w nl (dots g n ++ rest) q0 true [key0] mark0 T (low_space _ L0) (proj1 (proj2 A0)) (conj eq_refl eq_refl) (dots_end n rest D)) as (m1 & l1 & ks1 & G1 & A1 & O1).
      destruct (dots_read n rest (q0 ++ l1) true ks1 m1 Sr A1) as (m2 & l2 & al2 & ks2 & G2 & A2 & E2).
      destruct (docs_read ds rest T2 L1 ((q0 ++ l1) ++ l2) al2 ks2 m2 A2) as (m3 & l3 & al3 & ks3 & G3 & A3 & E3).
      exists m3, ((l1 ++ l2) ++ l3), al3, ks3. replace (q0 ++ (l1 ++ l2) ++ l3) with (((q0 ++ l1) ++ l2) ++ l3) by (rewrite <- !app_assoc; reflexivity). split; [eapply leads_trans; [exact G1|]; eapply leads_trans; [exact G2|exact G3]|]. split; [exact A3|]. rewrite !map_app, E2.
      split; [apply inside_app; [apply inside_app; [exact (opt_node_inside _ _ _ _ O1)|apply repeat_inside; discriminate]|exact (documents_inside _ _ E3)]|].
      rewrite <- !app_assoc. rewrite (app_assoc (map t_tok l1)). apply Stream_implicit; [|exact E3]. constructor. apply opt_node_node; assumption. }
  destruct R as (m & l & al & ks & G & [C S] & In & St). destruct (G _ (alike_refl _)) as (n & s' & E & Al). destruct (spent_key m ks S) as (k & kr & Es & Sk & _).
  destruct (eager_finish enc nest w n s' m (q0 ++ l) al ks k kr E Al C Es Sk Hfits) as (n' & final & E' & Fi & Tf).
  { constructor; [discriminate|]. apply Forall_forall. intros t It X. unfold inside in In. rewrite Forall_forall in In. apply (In TStreamEnd); [|reflexivity]. rewrite <- X. apply in_map. exact It. }
  exists n', final. split; [exact E'|]. split; [exact Fi|]. rewrite Tf, map_app. exact St.
Qed.
End Docs.
