(* The emitter writes the texts of TextGrammar: anchors, tags, scalars, aliases and
   simple keys. *)
From Verif Require Import Base ReaderModel Utf8Spec Utf8Lemmas CharSpec Types WriterModel WriterSpec ParserModel PenModel PenText EmitModel EmitSpec TreeSpec GrammarSpec AgreeSpec RoundSpec TagRun TagTrip DoubleTrip SingleTrip PlainTrip BlockTrip TextGrammar EmitRun EmitPen.
From Verif Require EmitInv.

Section Leaf.
Variables (g : cfg) (T : list tagdir) (e : env) (lim : Z).
Hypothesis Hind : (2 <= g_indent g <= 9)%Z.
Hypothesis HT : Forall (fun td => valid_handle (fst td)) T.
Hypothesis NT : NoDup (map fst T).
Hypothesis He : forall h s t, resolve_tag (utf8_tags T) h s = Some t -> resolves e h s t.

Definition em (s : estate) (ss : list estate) (l : list ev) (i : Z) (is : list Z) (f : Z) (p : pen) (mp si : bool) (d : adata) : emitter :=
  mkEmitter g p s ss l i is f T mp si d.
(* going on with the events [es] *)
Definition resumes (s : estate) (ss : list estate) (i : Z) (is : list Z) (f : Z) (p : pen) (es : list ev) (mf : emitter) : Prop :=
  exists l mp si d, run es (em s ss l i is f p mp si d) = EOk mf.
(* about to write a node *)
Definition opens (mapping simple : bool) (ss : list estate) (i : Z) (is : list Z) (f : Z) (p : pen) (l : list ev) (mf : emitter) : Prop :=
  exists s mp si x r d m1, l = x :: r /\ analyze_event g T x = inr d /\ emit_node (em s ss l i is f p mp si d) x mapping simple = EOk m1 /\ run r m1 = EOk mf.

Lemma resumed s ss i is f p x r mf : resumes s ss i is f p (x :: r) mf ->
  exists mp si d m1, analyze_event g T x = inr d /\ state_machine (em s ss (x :: r) i is f p mp si d) x = EOk m1 /\ run r m1 = EOk mf.
Proof.
  intros (l & mp & si & d & R). cbn [run] in R. unfold emit_one in R. cbn [em set_events m_cfg m_tags] in R.
  destruct (analyze_event g T x) as [y|d'] eqn:A; [discriminate|].
  change (set_data (set_events (em s ss l i is f p mp si d) (x :: r)) d') with (em s ss (x :: r) i is f p mp si d') in R.
  destruct (state_machine (em s ss (x :: r) i is f p mp si d') x) as [m1|y m1|] eqn:S; cbn [ebind] in R; try discriminate.
  exists mp, si, d', m1. split; [reflexivity|]. split; [exact S|]. rewrite run_events in R. exact R.
Qed.

(* ---- anchor and tag ---- *)
Definition suffix_of (d : adata) : list N := match a_suffix d with Some x => x | None => [] end.
Definition tag_for (d : adata) (t : option (list N)) : Prop :=
  match t with
  | None => has_tag d = false
  | Some t => has_tag d = true /\ tag_fits (a_handle d) (suffix_of d) /\ exists h s, tag_tok (a_handle d) (suffix_of d) = TTag h s /\ resolves e h s t
  end.
Definition lead (p : pen) (pw : list N) : list N := match pw with [] => [] | _ => gap_text (p_white p) ++ pw end.
Definition size (d : adata) : nat := N.to_nat (olen (a_anchor d) + olen (a_handle d) + olen (a_suffix d)).

Lemma written_is d : has_tag d = true -> tag_written d = tag_text (a_handle d) (suffix_of d).
Proof. unfold has_tag, tag_written, suffix_of. destruct (a_handle d), (a_suffix d); try reflexivity. discriminate. Qed.
Lemma flat_alpha a : Forall (fun c => is_alpha c = true) a -> flat a.
Proof.
  intros F. unfold flat. induction F as [|c l H _ IH]; [reflexivity|]. cbn [existsb]. rewrite IH, orb_false_r.
  unfold is_alpha, is_digit, is_upper, is_lower, in_range in H. unfold is_break. lia.
Qed.
Lemma enc_byte c b : scalar_value c -> In b (utf8_enc c) -> b < 256.
Proof.
  intros S. assert (c < 0x110000) by (unfold scalar_value in S; lia). unfold utf8_enc.
  assert (H2 : c / 64 < 0x110000 / 64 + 1) by (apply N.div_lt_upper_bound; lia).
  destruct (c <? 0x80) eqn:E1; [intros [<-|[]]; lia|]. destruct (c <? 0x800) eqn:E2.
  { intros [<-|[<-|[]]]; [|pose proof (N.mod_lt c 64 ltac:(lia)); lia]. assert (c / 64 < 32) by (apply N.div_lt_upper_bound; lia). lia. }
  destruct (c <? 0x10000) eqn:E3.
  { intros [<-|[<-|[<-|[]]]]; [|pose proof (N.mod_lt (c / 64) 64 ltac:(lia)); lia|pose proof (N.mod_lt c 64 ltac:(lia)); lia]. assert (c / 4096 < 16) by (apply N.div_lt_upper_bound; lia). lia. }
  intros [<-|[<-|[<-|[<-|[]]]]]; [|pose proof (N.mod_lt (c / 4096) 64 ltac:(lia)); lia|pose proof (N.mod_lt (c / 64) 64 ltac:(lia)); lia|pose proof (N.mod_lt c 64 ltac:(lia)); lia].
  assert (c / 262144 < 5) by (apply N.div_lt_upper_bound; lia). lia.
Qed.
Lemma tag_char_size c : scalar_value c -> flat (tag_char c) /\ (length (tag_char c) <= 3 * length (utf8_enc c))%nat.
Proof.
  intros S. unfold tag_char. destruct (tag_plain c) eqn:P.
  - apply tag_plain_ascii in P. split; [apply ascii_flat; repeat constructor; lia|]. rewrite enc_ascii by lia. cbn. lia.
  - assert (H : forall b, In b (utf8_enc c) -> b < 256) by (intros b; apply enc_byte; exact S). revert H. generalize (utf8_enc c) as l. clear P S.
    induction l as [|b l IH]; intros H; [split; [reflexivity|cbn; lia]|]. cbn [flat_map]. destruct IH as [IH1 IH2]; [intros x I; apply H; right; exact I|]. split.
    + apply flat_app; [|exact IH1]. destruct (byte_hex b (H b (or_introl eq_refl))) as (x & y & Ex & Ey & X & Y & _). unfold tag_escape. rewrite Ex, Ey. apply ascii_flat. repeat constructor; try lia; apply hex_ascii; assumption.
    + rewrite app_length. cbn [tag_escape length]. lia.
Qed.
Lemma tag_chars_size x : Forall scalar_value x -> flat (flat_map tag_char x) /\ (length (flat_map tag_char x) <= 3 * length (utf8 x))%nat.
Proof.
  intros F. induction F as [|c x S _ [IH1 IH2]]; [split; [reflexivity|cbn; lia]|]. change (utf8 (c :: x)) with (utf8_enc c ++ utf8 x). cbn [flat_map]. rewrite !app_length. destruct (tag_char_size c S) as [C1 C2].
  split; [apply flat_app; assumption|lia].
Qed.
Lemma uri_scalar u x : Forall (uri_ok u) x -> Forall scalar_value x.
Proof. intros F. apply Forall_forall. intros c H. rewrite Forall_forall in F. apply (F c H). Qed.
Lemma tag_size h x : tag_fits h x -> flat (tag_text h x) /\ (length (tag_text h x) <= 3 + N.to_nat (olen h) + 3 * length (utf8 x))%nat.
Proof.
  unfold tag_fits, tag_text. destruct h as [h|].
  - intros [F H]. destruct (tag_chars_size x (uri_scalar _ _ F)) as [A B]. cbn [olen]. unfold nlen. rewrite Nat2N.id, app_length. pose proof (utf8_longer h). split; [|lia]. apply flat_app; [|exact A].
    destruct H as [(n & -> & Fn & _)| ->]; [|reflexivity]. unfold flat. cbn [existsb]. apply flat_app; [apply flat_alpha; exact Fn|reflexivity].
  - intros [_ F]. destruct (tag_chars_size x (uri_scalar _ _ F)) as [A B]. cbn [length]. rewrite app_length. cbn [length]. split; [|lia]. unfold flat. cbn [existsb]. apply flat_app; [exact A|reflexivity].
Qed.

Definition anchor_fine (d : adata) : Prop := forall a, a_anchor d = Some a -> anchor_ok a.
Lemma anchor_written m : let p := m_pen m in let p' := m_pen (process_anchor m) in anchor_fine (m_data m) ->
  process_anchor m = set_pen m p' /\
  match a_anchor (m_data m) with
  | None => p' = p
  | Some a => chars p' = chars p ++ gap_text (p_white p) ++ (if a_alias (m_data m) then 0x2A else 0x26) :: a /\ tight p'
  end.
Proof.
  cbv zeta. intros F. unfold process_anchor, anchor_fine in *. destruct (a_anchor (m_data m)) as [a|]; [|split; [destruct m; reflexivity|reflexivity]].
  split; [reflexivity|]. cbn [on_pen indicator set_pen m_pen]. unfold write_anchor. rewrite chars_white, chars_puts.
  rewrite (proj1 (indicator_is _ true false false (m_pen m))), <- !app_assoc. split; [reflexivity|]. split; reflexivity.
Qed.
Lemma tag_pen m : process_tag m = set_pen m (m_pen (process_tag m)).
Proof. unfold process_tag. destruct (a_handle (m_data m)), (a_suffix (m_data m)); try reflexivity. destruct m; reflexivity. Qed.

Lemma props_written m t : let m' := process_tag (process_anchor m) in let p := m_pen m in let p' := m_pen m' in
  a_alias (m_data m) = false -> anchor_fine (m_data m) -> tag_for (m_data m) t ->
  m' = set_pen m p' /\ exists pw pt, ptext e (a_anchor (m_data m)) t pw pt /\ chars p' = chars p ++ lead p pw /\ (pw = [] -> p' = p) /\ (pw <> [] -> tight p') /\
    flat pw /\ (length pw <= 5 + 3 * size (m_data m))%nat.
Proof.
  cbv zeta. intros Al F Tg. destruct (anchor_written m F) as [E A]. cbv zeta in A. set (m1 := process_anchor m) in *.
  assert (D1 : m_data m1 = m_data m) by (rewrite E; reflexivity).
  pose proof (process_tag_text m1) as P. cbv zeta in P. rewrite D1 in P. rewrite Al in A.
  assert (E2 : process_tag m1 = set_pen m (m_pen (process_tag m1))) by (rewrite tag_pen, E; reflexivity).
  split; [exact E2|]. set (p' := m_pen (process_tag m1)) in *.
  assert (La : forall a, a_anchor (m_data m) = Some a -> (length a <= N.to_nat (olen (Some a)))%nat) by (intros a _; cbn [olen]; unfold nlen; rewrite Nat2N.id; apply utf8_longer).
  destruct t as [t|].
  - destruct Tg as (Ht & Fi & h & s & Tk & Rs). rewrite Ht in P. destruct P as (P1 & _ & P2 & P3). rewrite (written_is _ Ht) in P1.
    destruct (tag_size _ _ Fi) as [Fl Le]. assert (Sf : (length (utf8 (suffix_of (m_data m))) <= N.to_nat (olen (a_suffix (m_data m))))%nat) by (unfold suffix_of; destruct (a_suffix (m_data m)); cbn [olen utf8 flat_map length]; unfold nlen; lia).
    assert (Nw : tag_text (a_handle (m_data m)) (suffix_of (m_data m)) <> []) by exact (proj2 (tag_text_head _ _ Fi)). set (w := tag_text (a_handle (m_data m)) (suffix_of (m_data m))) in *.
    assert (Ti : tag_is e w h s t) by (apply Tag_is; assumption).
    destruct (a_anchor (m_data m)) as [a|] eqn:Ea.
    + destruct A as (A1 & A2 & A3). exists (0x26 :: a ++ 0x20 :: w), [TAnchor a; TTag h s]. split; [apply PT_both; [exact (F a Ea)|exact Ti]|].
      split. { rewrite P1, gap_is, A1, A2. cbn [lead gap_text app]. rewrite <- !app_assoc. cbn [app]; rewrite <- ?app_assoc; reflexivity. }
      split; [discriminate|]. split; [intros _; split; assumption|]. specialize (La a eq_refl).
      split; [unfold flat; cbn [existsb]; apply flat_app; [apply flat_alpha; exact (proj2 (F a Ea))|exact Fl]|]. unfold size. rewrite Ea. cbn [length]. rewrite app_length. cbn [length]. lia.
    + exists w, [TTag h s]. rewrite A in *. split; [apply PT_tag; exact Ti|]. split. { rewrite P1, gap_is. destruct w; [contradiction|reflexivity]. }
      split; [contradiction|]. split; [intros _; split; assumption|]. split; [exact Fl|]. unfold size. lia.
  - cbn [tag_for] in Tg. rewrite Tg in P. unfold p'. rewrite P in *.
    destruct (a_anchor (m_data m)) as [a|] eqn:Ea.
    + destruct A as (A1 & A2). exists (0x26 :: a), [TAnchor a]. split; [apply PT_anchor; exact (F a Ea)|]. split; [exact A1|]. split; [discriminate|]. split; [auto|]. specialize (La a eq_refl).
      split; [unfold flat; cbn [existsb]; apply flat_alpha; exact (proj2 (F a Ea))|]. unfold size. rewrite Ea. cbn [length]. lia.
    + exists [], []. split; [apply PT_none|]. cbn [lead]. rewrite app_nil_r, A. repeat split; try contradiction. cbn. lia.
Qed.
(* the gap before what follows *)
Lemma lead_gap p pw p' : (pw = [] -> p' = p) -> (pw <> [] -> tight p') -> lead p pw ++ gap_text (p_white p') = gap_text (p_white p) ++ pw ++ sep pw.
Proof.
  intros H1 H2. destruct pw as [|c pw]; [rewrite (H1 eq_refl); cbn; rewrite app_nil_r; reflexivity|]. destruct H2 as [W _]; [discriminate|]. rewrite W. cbn [lead sep gap_text]. rewrite <- app_assoc. reflexivity.
Qed.

(* ---- the analysis ---- *)
Lemma anchor_analysed a d : maybe a (fun a => analyze_anchor a false) no_data = inr d -> a_anchor d = a /\ a_alias d = false /\ a_handle d = None /\ a_suffix d = None /\ (forall x, a = Some x -> anchor_ok x).
Proof.
  destruct a as [a|]; cbn [maybe].
  - unfold analyze_anchor. destruct a as [|c a]; [discriminate|]. destruct (forallb is_alpha (c :: a)) eqn:F; [|discriminate]. intros H; injection H as <-. cbn. do 4 (split; [reflexivity|]).
    intros x H; injection H as <-. split; [discriminate|]. apply EmitInv.forallb_Forall. exact F.
  - intros H; injection H as <-. do 4 (split; [reflexivity|]). discriminate.
Qed.
Lemma tag_analysed (shown : bool) t d d' : (if shown then maybe t (analyze_tag T) d else inr d) = inr d' -> a_handle d = None -> a_suffix d = None -> (shown = true -> forall x, t = Some x -> nice_tag T x) ->
  a_anchor d' = a_anchor d /\ a_alias d' = a_alias d /\ tag_for d' (match (if shown then t else None) with Some t => Some (utf8 t) | None => None end) /\
  (match (if shown then t else None) with Some _ => True | None => a_handle d' = None /\ a_suffix d' = None end).
Proof.
  intros A Hh Hs Ni. destruct shown; [|injection A as <-; cbn [tag_for]; unfold has_tag; rewrite Hh, Hs; auto].
  destruct t as [t|]; cbn [maybe] in A; [|injection A as <-; cbn [tag_for]; unfold has_tag; rewrite Hh, Hs; auto].
  destruct (Ni eq_refl t eq_refl) as (N1 & N2 & N3). destruct (analyzed_tag T t d d' A Hh HT NT N1 N2 N3) as (H1 & x & H2 & _ & H3 & h & s & H4 & H5).
  assert (E : a_anchor d' = a_anchor d /\ a_alias d' = a_alias d).
  { unfold analyze_tag in A. destruct t; [discriminate|]. destruct (match_tag T (n :: t)) as [[? ?]|]; injection A as <-; auto. }
  destruct E as [E1 E2]. split; [exact E1|]. split; [exact E2|]. split; [|exact I]. cbn [tag_for]. unfold suffix_of. rewrite H2. split; [exact H1|]. split; [exact H3|]. exists h, s. split; [exact H4|]. apply He. exact H5.
Qed.
Lemma coll_analysed x a t i d : (exists style, x = ESeqStart a t i style \/ x = EMapStart a t i style) -> analyze_event g T x = inr d -> nice (g_canonical g) T lim (g_width g) x ->
  a_anchor d = a /\ a_alias d = false /\ anchor_fine d /\ exists t', tag_for d t' /\ coll_tag_read (g_canonical g) t i t'.
Proof.
  intros X A Ni. assert (E : then_ (maybe a (fun a => analyze_anchor a false) no_data) (fun d => if g_canonical g || negb i then maybe t (analyze_tag T) d else inr d) = inr d /\ (g_canonical g || negb i = true -> forall x, t = Some x -> nice_tag T x)).
  { destruct X as [style [-> | ->]]; exact (conj A Ni). }
  destruct E as [E Nt]. destruct (maybe a (fun a => analyze_anchor a false) no_data) as [y|d0] eqn:E0; [discriminate|]. cbn [then_] in E.
  destruct (anchor_analysed a d0 E0) as (A1 & A2 & A3 & A4 & A5). destruct (tag_analysed _ t d0 d E A3 A4 Nt) as (B1 & B2 & B3 & _).
  split; [congruence|]. split; [congruence|]. split; [intros y Hy; apply A5; congruence|]. eexists. split; [exact B3|reflexivity].
Qed.
Lemma scalar_keeps u v d : let d' := analyze_scalar u v d in a_anchor d' = a_anchor d /\ a_alias d' = a_alias d /\ a_handle d' = a_handle d /\ a_suffix d' = a_suffix d /\ a_value d' = v /\
  a_multiline d' = existsb is_break v.
Proof.
  cbv zeta. unfold analyze_scalar. destruct v as [|c r]; [repeat split|]. cbn [a_anchor a_alias a_handle a_suffix a_value a_multiline]. repeat split.
  unfold scalar_flags. match goal with |- context [flag_loop u true true false false (c :: r) ?f0] => pose proof (flag_facts u (c :: r) true true false false f0) as K end. cbv zeta in K. destruct K as (_ & _ & K). exact K.
Qed.
Lemma scalar_analysed a t v pi qi style d : analyze_event g T (EScalar a t v pi qi style) = inr d -> nice (g_canonical g) T lim (g_width g) (EScalar a t v pi qi style) ->
  exists d0, d = analyze_scalar (g_unicode g) v d0 /\ a_anchor d = a /\ a_alias d = false /\ anchor_fine d /\ a_value d = v /\ a_multiline d = existsb is_break v /\
  match (if g_canonical g || (negb pi && negb qi) then t else None) with Some t => tag_for d (Some (utf8 t)) | None => a_handle d = None /\ a_suffix d = None end.
Proof.
  intros A (Nt & _ & _). cbn [analyze_event] in A. destruct (maybe a (fun a => analyze_anchor a false) no_data) as [y|d0] eqn:E0; [discriminate|]. cbn [then_] in A.
  destruct (anchor_analysed a d0 E0) as (A1 & A2 & A3 & A4 & A5).
  destruct (if g_canonical g || negb pi && negb qi then maybe t (analyze_tag T) d0 else inr d0) as [y|d1] eqn:E; [discriminate|]. cbn [then_] in A. injection A as <-.
  destruct (tag_analysed _ t d0 d1 E A3 A4 Nt) as (B1 & B2 & B3 & B4). pose proof (scalar_keeps (g_unicode g) v d1) as K. cbv zeta in K. destruct K as (K1 & K2 & K3 & K4 & K5 & K6).
  exists d1. split; [reflexivity|]. split; [congruence|]. split; [congruence|]. split; [intros y Hy; apply A5; congruence|]. split; [exact K5|]. split; [exact K6|].
  destruct (if g_canonical g || negb pi && negb qi then t else None); [|rewrite K3, K4; exact B4].
  revert B3. unfold tag_for, has_tag, suffix_of. rewrite K3, K4. auto.
Qed.

(* ---- the style ---- *)
Lemma selected m pi qi style h style' : select_style m pi qi style = Some (h, style') ->
  let d := m_data m in let flow := negb (m_flow m =? 0)%Z in let no_tag := negb (has_tag d) in
  (no_tag = true -> pi = true \/ qi = true) /\ h = (if no_tag && negb qi && negb (sstyle_eqb style' Plain) then Some [0x21] else a_handle d) /\
  match style' with
  | Plain => plain_allowed flow d = true /\ (a_value d = [] -> flow = false /\ m_simple m = false) /\ (no_tag = true -> pi = true)
  | SingleQuoted => a_single d = true
  | DoubleQuoted => True
  | Literal => a_block d = true /\ flow = false /\ m_simple m = false
  | Folded => a_block d = true /\ flow = false /\ m_simple m = false /\ style = Folded
  | AnyScalar => False
  end.
Proof.
  cbv zeta. unfold select_style. set (d := m_data m). replace (match a_handle d, a_suffix d with None, None => true | _, _ => false end) with (negb (has_tag d)) by (unfold has_tag; destruct (a_handle d), (a_suffix d); reflexivity).
  generalize (negb (has_tag d)) as nt. intros nt. generalize (negb (m_flow m =? 0)%Z) as flow. intros flow. unfold plain_allowed.
  assert (V : a_value d = [] -> (nlen (a_value d) =? 0) = true) by (intros ->; reflexivity). revert V. generalize (nlen (a_value d) =? 0) as nv. intros nv V.
  destruct (nt && negb pi && negb qi) eqn:E0; [discriminate|]. intros H.
  assert (P1 : nt = true -> pi = true \/ qi = true) by (intros ->; destruct pi, qi; auto; discriminate). split; [exact P1|].
  injection H as H1 H2. rewrite H2 in H1. split; [symmetry; exact H1|]. revert H2. clear H1 E0.
  destruct (g_canonical (m_cfg m)); [destruct (m_simple m && a_multiline d); intros <-; exact I|]. destruct (m_simple m && a_multiline d) eqn:E1; [intros <-; exact I|].
  assert (Pl : forall st', (match (if flow && negb (a_flow_plain d) || negb flow && negb (a_block_plain d) || nv && (flow || m_simple m) || nt && negb pi then SingleQuoted else Plain) with
     | SingleQuoted => if negb (a_single d) then DoubleQuoted else SingleQuoted | x => x end) = st' ->
     match st' with Plain => (if flow then a_flow_plain d else a_block_plain d) = true /\ (a_value d = [] -> flow = false /\ m_simple m = false) /\ (nt = true -> pi = true) | SingleQuoted => a_single d = true | DoubleQuoted => True | _ => False end).
  { intros st' <-. destruct (flow && negb (a_flow_plain d) || negb flow && negb (a_block_plain d) || nv && (flow || m_simple m) || nt && negb pi) eqn:E2; [destruct (a_single d); [reflexivity|exact I]|].
    apply orb_false_iff in E2 as [E2 E5]. apply orb_false_iff in E2 as [E2 E4]. apply orb_false_iff in E2 as [E2 E3].
    split; [destruct flow; [destruct (a_flow_plain d)|destruct (a_block_plain d)]; auto|]. split; [|intros ->; destruct pi; auto]. intros Hv. rewrite (V Hv) in E4. destruct flow, (m_simple m); try discriminate; auto. }
  destruct style.
  - intros H. specialize (Pl _ eq_refl). destruct (flow && _ || _ || _ || _); [destruct (negb (a_single d))|]; subst style'; exact Pl.
  - intros H. specialize (Pl _ eq_refl). destruct (flow && _ || _ || _ || _); [destruct (negb (a_single d))|]; subst style'; exact Pl.
  - destruct (a_single d) eqn:A; cbn [negb]; intros <-; [reflexivity|exact I].
  - intros <-. exact I.
  - destruct (negb (a_block d) || flow || m_simple m) eqn:E2; intros <-; [exact I|]. apply orb_false_iff in E2 as [E2 E4]. apply orb_false_iff in E2 as [E2 E3]. apply negb_false_iff in E2. auto.
  - destruct (negb (a_block d) || flow || m_simple m) eqn:E2; intros <-; [exact I|]. apply orb_false_iff in E2 as [E2 E4]. apply orb_false_iff in E2 as [E2 E3]. apply negb_false_iff in E2. auto.
Qed.

Lemma style_selected m pi qi style h style' : select_style m pi qi style = Some (h, style') -> scalar_style_read (g_canonical (m_cfg m)) style style'.
Proof.
  unfold select_style. set (d := m_data m). destruct (_ && negb pi && negb qi); [discriminate|]. intros H. injection H as _ <-. unfold scalar_style_read.
  destruct (g_canonical (m_cfg m)); [left; destruct (m_simple m && a_multiline d); reflexivity|]. destruct (m_simple m && a_multiline d); [left; reflexivity|].
  destruct style; try (left; reflexivity).
  - destruct (_ || _ && negb pi); [destruct (negb (a_single d))|]; auto.
  - destruct (_ || _ && negb pi); [destruct (negb (a_single d))|]; auto.
  - destruct (negb (a_single d)); auto.
  - destruct (negb (a_block d) || _ || m_simple m); auto.
  - destruct (negb (a_block d) || _ || m_simple m); auto.
Qed.

(* ---- scalars ---- *)
Definition wide_of (i : Z) : nat := Z.to_nat (content_indent g i).
Definition block_body (literal : bool) (s w : list N) : list N :=
  (if literal then 0x7C else 0x3E) :: digit_text (digit_of g s) ++ chomp_text (chomp_of (tail_breaks 1 s)) ++ break_chars g ++ w.
Inductive scalar_text (f i : Z) (simple : bool) (p p2 : pen) (v : list N) (pw : list N) : sstyle -> Prop :=
| SX_text style w : chars p2 = chars p ++ gap_text (p_white p) ++ pw ++ sep pw ++ w -> tight p2 -> stext g (negb (f =? 0)%Z) (wide_of i) v style w ->
    (simple = true -> flat v -> flat w /\ (length w <= 2 + 4 * length (utf8 v))%nat) -> scalar_text f i simple p p2 v pw style
| SX_empty : v = [] -> f = 0%Z -> simple = false -> chars p2 = chars p ++ lead p pw -> tight p2 -> scalar_text f i simple p p2 v pw Plain
| SX_block (literal : bool) w : f = 0%Z -> simple = false -> v <> [] -> chars p2 = chars p ++ gap_text (p_white p) ++ pw ++ sep pw ++ block_body literal v w ->
    bt g literal (wide_of i) (AtBreak Kept) v w -> digit_ok (digit_of g v) -> header_fits i (wide_of i) v (digit_of g v) ->
    pen_after (is_break (last v 0)) p2 -> scalar_text f i simple p p2 v pw (if literal then Literal else Folded).

Lemma fits_less i width s : (i <= lim)%Z -> indented_lines_fit lim width s -> indented_lines_fit i width s.
Proof. intros L H u l v E1 E2 E3 E4. specialize (H u l v E1 E2 E3 E4). lia. Qed.

Lemma scalar_run s0 s ss l i is f p mp si d a t v pi qi style mapping simple m1 :
  analyze_event g T (EScalar a t v pi qi style) = inr d -> nice (g_canonical g) T lim (g_width g) (EScalar a t v pi qi style) -> (-1 <= i)%Z -> (content_indent g i <= lim)%Z ->
  emit_node (em s0 (s :: ss) l i is f p mp si d) (EScalar a t v pi qi style) mapping simple = EOk m1 ->
  exists p2 d2 t' style' pw pt, m1 = em s ss l i is f p2 mapping simple d2 /\ ptext e a t' pw pt /\ (scalar_tag_read (g_canonical g) t pi qi style' t' /\ scalar_style_read (g_canonical g) style style') /\
    flat pw /\ (length pw <= 8 + 3 * size d)%nat /\ scalar_text f i simple p p2 v pw style'.
Proof.
  intros A Ni Hi Hl E. destruct (scalar_analysed _ _ _ _ _ _ _ A Ni) as (d0 & Ed & Ea & Eal & Fa & Ev & Em & Tg).
  cbn [emit_node] in E. unfold emit_scalar in E. set (m0 := set_context (em s0 (s :: ss) l i is f p mp si d) mapping simple) in E.
  destruct (select_style m0 pi qi style) as [[h style']|] eqn:Sel; [|discriminate]. pose proof (style_selected _ _ _ _ _ _ Sel) as Sst. change (g_canonical (m_cfg m0)) with (g_canonical g) in Sst. apply selected in Sel. cbv zeta in Sel. change (m_data m0) with d in Sel. change (m_flow m0) with f in Sel. change (m_simple m0) with simple in Sel.
  destruct Sel as (S1 & S2 & S3). cbv zeta in E. change (m_data m0) with d in E.
  set (dh := mkAdata (a_anchor d) (a_alias d) h (a_suffix d) (a_value d) (a_multiline d) (a_flow_plain d) (a_block_plain d) (a_single d) (a_block d)) in *.
  set (m2 := set_data m0 dh) in *.
  (* the tag *)
  assert (K : exists t', tag_for dh t' /\ scalar_tag_read (g_canonical g) t pi qi style' t' /\ (size dh <= 1 + size d)%nat).
  { unfold scalar_tag_read. destruct (if g_canonical g || negb pi && negb qi then t else None) as [t0|].
    - exists (Some (utf8 t0)). destruct Tg as (Ht & Tg). rewrite Ht in S2. cbn [negb andb] in S2. subst h. split; [|split; [reflexivity|unfold size, dh; cbn; lia]]. split; [exact Ht|exact Tg].
    - destruct Tg as [Th Ts]. assert (Hn : has_tag d = false) by (unfold has_tag; rewrite Th, Ts; reflexivity). rewrite Hn in *. cbn [negb andb] in S1, S2, S3. rewrite Th in S2. specialize (S1 eq_refl).
      destruct (negb qi && negb (sstyle_eqb style' Plain)) eqn:Q.
      + subst h. exists (Some [0x21]). split. { unfold tag_for, has_tag, suffix_of, dh. cbn [a_handle a_suffix]. rewrite Ts. split; [reflexivity|]. split; [split; [constructor|auto]|]. exists [], [0x21]. split; reflexivity. }
        apply andb_true_iff in Q as [Q1 Q2]. apply negb_true_iff in Q1. rewrite Q1. split; [destruct style'; try reflexivity; discriminate|]. unfold size, dh. cbn [a_anchor a_handle a_suffix]. rewrite Th. cbn [olen]. change (nlen (utf8 [0x21])) with 1. lia.
      + subst h. exists None. split; [unfold tag_for, has_tag, dh; cbn [a_handle a_suffix]; rewrite Ts; reflexivity|]. split; [|unfold size, dh; cbn [a_anchor a_handle a_suffix]; rewrite Th; lia].
        destruct style'; try (destruct qi; [reflexivity|discriminate Q]). destruct S3 as (_ & _ & S3). auto. }
  destruct K as (t' & Td & Tr0 & Sz). pose proof (conj Tr0 Sst) as Tr.
  destruct (props_written m2 t') as (P1 & pw & pt & P2 & P3 & P4 & P5 & P6 & P7); [exact Eal|exact Fa|exact Td|].
  change (m_data m2) with dh in *. change (m_pen m2) with p in *. set (m3 := process_tag (process_anchor m2)) in *. set (p3 := m_pen m3) in *.
  assert (G : chars p3 ++ gap_text (p_white p3) = chars p ++ gap_text (p_white p) ++ pw ++ sep pw) by (rewrite P3, <- app_assoc, (lead_gap p pw p3 P4 P5); reflexivity).
  rewrite P1 in E. unfold increase_indent in E. cbn [m_indents m_indent m_cfg set_pen set_indents] in E. change (m_indents m2) with is in E. change (m_indent m2) with i in E. change (m_cfg m2) with g in E. change (m_states m2) with (s :: ss) in E.
  cbn [negb] in E. set (j := if (i <? 0)%Z then g_indent g else (i + g_indent g)%Z) in E. assert (Ej : j = content_indent g i) by reflexivity.
  assert (J1 : (1 <= j)%Z) by (unfold j; destruct (i <? 0)%Z eqn:Q; lia).
  unfold process_scalar in E. cbn [on_pen m_cfg m_data m_simple m_indent m_flow m_pen set_pen set_indents pop_indent m_indents ebind pop_state m_states] in E.
  change (m_cfg m2) with g in E. change (m_data m2) with dh in E. change (m_simple m2) with simple in E. change (m_flow m2) with f in E. change (m_states m2) with (s :: ss) in E. change (a_value dh) with (a_value d) in E. rewrite Ev in E.
  match type of E with context [on_pen ?w (set_indents (set_pen m2 p3) j (i :: is))] => set (p2 := w p3) in * end.
  match type of E with ?x = _ => change x with (EOk (em s ss l i is f p2 mapping simple dh)) in E end.
  injection E as <-. exists p2, dh, t', style', pw, pt.
  split; [reflexivity|]. split; [change (a_anchor dh) with (a_anchor d) in P2; rewrite Ea in P2; exact P2|]. split; [exact Tr|]. split; [exact P6|]. split; [lia|].
  destruct Ni as (_ & Nv & Nf).
  assert (Fin : forall q w, chars q = chars p3 ++ gap_text (p_white p3) ++ w -> chars q = chars p ++ gap_text (p_white p) ++ pw ++ sep pw ++ w).
  { intros q w ->. rewrite app_assoc, G, <- !app_assoc. reflexivity. }
  destruct style'.
  - contradiction.
  - destruct S3 as (S3 & S4 & _). unfold p2. destruct v as [|c v'] eqn:Hv.
    + rewrite Ev in S4. destruct (S4 eq_refl) as [S5 S6]. apply negb_false_iff, Z.eqb_eq in S5. subst simple f. apply SX_empty; try reflexivity; [|split; reflexivity].
      unfold write_plain. cbn [nlen length negb]. rewrite andb_false_r. cbn [space_if plain_loop]. rewrite chars_white. exact P3.
    + rewrite <- Hv in *. assert (Nv' : v <> []) by (rewrite Hv; discriminate). rewrite Ed in S3. destruct (plain_written g j f v (negb simple) p3 (negb (f =? 0)%Z) d0 J1 Nv' S3) as (w & W1 & W2 & W3 & W4).
      apply SX_text with (w := w); [apply Fin; exact W1|exact W3| |intros -> _; destruct (W4 eq_refl); split; [assumption|lia]].
      apply ST_plain; [apply (plain_string_of _ (g_unicode g) v d0 Nv' S3)|apply (plain_begins_ok _ (g_unicode g) v d0 Nv' S3)|]. rewrite Ej in W2. exact W2.
  - rewrite Ed in S3. destruct (single_written g j v (negb simple) p3 d0 J1 S3) as (w & W1 & W2 & W3 & W4).
    apply SX_text with (w := 0x27 :: w ++ [0x27]); [apply Fin; exact W1|exact W3|apply ST_single; exact W2|].
    intros -> Fv. destruct (W4 eq_refl Fv). split; [unfold flat; cbn [existsb]; apply flat_app; [assumption|reflexivity]|]. cbn [length]. rewrite app_length. cbn [length]. lia.
  - destruct (double_written g j v (negb simple) p3 J1 Nv) as (w & W1 & W2 & W3 & W4).
    apply SX_text with (w := 0x22 :: w ++ [0x22]); [apply Fin; exact W1|exact W3|apply ST_double; exact W2|].
    intros -> Fv. destruct (W4 eq_refl). split; [unfold flat; cbn [existsb]; apply flat_app; [assumption|reflexivity]|]. cbn [length]. rewrite app_length. cbn [length]. lia.
  - destruct S3 as (S3 & S4 & S5). apply negb_false_iff, Z.eqb_eq in S4. rewrite Ed in S3. destruct (block_written g j v p3 true d0 J1 S3) as (w & W1 & W2 & W3 & W4); [discriminate|].
    destruct (header_ok g j i v d0 Hind Hi Ej S3) as [H1 H2]. rewrite Ej in W2, H2. apply (SX_block f i simple p p2 v pw true w); try assumption. apply Fin. exact W1.
  - assert (S7 : g_canonical g = false) by (destruct Sst as [Sst|[Sst _]]; [discriminate|exact Sst]). destruct S3 as (S3 & S4 & S5 & S6). apply negb_false_iff, Z.eqb_eq in S4. rewrite Ed in S3. destruct (block_written g j v p3 false d0 J1 S3) as (w & W1 & W2 & W3 & W4); [intros _; apply fits_less; [rewrite Ej; exact Hl|exact (Nf S7 S6)]|].
    destruct (header_ok g j i v d0 Hind Hi Ej S3) as [H1 H2]. rewrite Ej in W2, H2. apply (SX_block f i simple p p2 v pw false w); try assumption. apply Fin. exact W1.
Qed.

(* ---- aliases ---- *)
Lemma alias_run s0 s ss l i is f p mp si d a mapping simple m1 : analyze_event g T (EAlias a) = inr d ->
  emit_node (em s0 (s :: ss) l i is f p mp si d) (EAlias a) mapping simple = EOk m1 ->
  exists p2 , m1 = em s ss l i is f p2 mapping simple d /\ anchor_ok a /\ tight p2 /\ chars p2 = chars p ++ gap_text (p_white p) ++ 0x2A :: a ++ (if simple then [0x20] else []) /\
    olen (a_anchor d) = nlen (utf8 a).
Proof.
  intros A E. cbn [analyze_event] in A. unfold analyze_anchor in A. destruct a as [|c a'] eqn:Ha; [discriminate|]. rewrite <- Ha in *. destruct (forallb is_alpha a) eqn:F; [|discriminate]. injection A as <-.
  assert (Ok : anchor_ok a) by (split; [rewrite Ha; discriminate|apply EmitInv.forallb_Forall; exact F]). cbn [emit_node] in E. unfold emit_alias in E.
  match type of E with context [process_anchor ?m] => destruct (anchor_written m) as [E1 E2]; [intros x Hx; injection Hx as <-; exact Ok|]; cbv zeta in E2; set (q := m_pen (process_anchor m)) in *; rewrite E1 in E end.
  cbn [set_context em m_data a_anchor a_alias m_pen] in E2. destruct E2 as [E2 E3]. cbn [set_context em set_pen m_simple] in E.
  destruct simple; cbn in E; injection E as <-.
  - exists (pput 0x20 q). split; [reflexivity|]. split; [exact Ok|]. split; [exact E3|]. split; [|reflexivity]. rewrite chars_put, E2, <- !app_assoc. cbn [app]. reflexivity.
  - exists q. split; [reflexivity|]. split; [exact Ok|]. split; [exact E3|]. split; [|reflexivity]. rewrite app_nil_r. exact E2.
Qed.
End Leaf.
