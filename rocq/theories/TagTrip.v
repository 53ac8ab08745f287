(* Tags: what the emitter writes is read back and resolved to the same tag. *)
From Verif Require Import Base ReaderModel Utf8Spec Utf8Lemmas CharSpec Types CursorModel ScanModel CursorProofs ScanProofs PlanFree FullRun WriterModel WriterSpec PenModel EscapeRun TagRun PenText EmitModel EmitSpec RoundSpec ParserModel.
From Verif Require EmitInv.
Import EmitInv(handle_valid).

(* ---- the text ---- *)
Definition gap (p : pen) : list N := if p_white p then [] else [0x20].
Lemma handle_text h p : chars (write_tag_handle h p) = chars p ++ gap p ++ h /\
  p_column (write_tag_handle h p) = (p_column p + Z.of_nat (length (gap p)) + Z.of_nat (length h))%Z /\ p_white (write_tag_handle h p) = false /\ p_indention (write_tag_handle h p) = false.
Proof.
  unfold write_tag_handle, space_if, gap. rewrite chars_white, chars_puts. cbn [set_white p_column p_white p_indention].
  rewrite (proj1 (pputs_state _ _)). destruct (p_white p); cbn [negb]; [|rewrite chars_put, <- app_assoc]; repeat split; cbn [pput pop_ p_column length]; lia.
Qed.
Lemma content_text x p : chars (write_tag_content x false p) = chars p ++ flat_map tag_char x /\
  p_column (write_tag_content x false p) = (p_column p + Z.of_nat (length (flat_map tag_char x)))%Z /\ p_white (write_tag_content x false p) = false /\ p_indention (write_tag_content x false p) = false.
Proof.
  unfold write_tag_content. cbn [andb space_if]. rewrite chars_white, chars_puts. cbn [set_white p_column p_white p_indention]. rewrite (proj1 (pputs_state _ _)). auto.
Qed.
Definition tag_written (d : adata) : list N :=
  match a_handle d, a_suffix d with
  | None, None => []
  | h, x => tag_text h (match x with Some x => x | None => [] end)
  end.
Definition has_tag (d : adata) : bool := match a_handle d, a_suffix d with None, None => false | _, _ => true end.
Lemma process_tag_text m : let p := m_pen m in let p' := m_pen (process_tag m) in
  if has_tag (m_data m)
  then chars p' = chars p ++ gap p ++ tag_written (m_data m) /\ p_column p' = (p_column p + Z.of_nat (length (gap p)) + Z.of_nat (length (tag_written (m_data m))))%Z
       /\ p_white p' = false /\ p_indention p' = false
  else process_tag m = m.
Proof.
  unfold has_tag, tag_written, process_tag. destruct (a_handle (m_data m)) as [h|], (a_suffix (m_data m)) as [x|]; cbv zeta; unfold on_pen, indicator; cbn [m_pen set_pen]; auto.
  - destruct (handle_text h (m_pen m)) as (E1 & E2 & _). destruct (content_text x (write_tag_handle h (m_pen m))) as (F1 & F2 & F3 & F4).
    rewrite F1, E1, F2, E2. cbn [tag_text]. rewrite app_length, <- !app_assoc. repeat split; auto. lia.
  - destruct (handle_text h (m_pen m)) as (E1 & E2 & E3 & E4). cbn [tag_text flat_map]. rewrite app_nil_r. auto.
  - destruct (indicator_text [0x21; 0x3C] true false false (m_pen m)) as (sp & E1 & Es & E2 & _).
    destruct (content_text x (write_indicator [0x21; 0x3C] true false false (m_pen m))) as (F1 & F2 & _).
    destruct (indicator_text [0x3E] false false false (write_tag_content x false (write_indicator [0x21; 0x3C] true false false (m_pen m)))) as (sp2 & G1 & Gs & G2 & G3 & G4).
    unfold on_pen. cbn [m_pen set_pen]. change (if true && negb (p_white (m_pen m)) then [0x20] else []) with (if negb (p_white (m_pen m)) then [0x20] else []) in Es.
    assert (Eg : sp = gap (m_pen m)) by (rewrite Es; unfold gap; destruct (p_white (m_pen m)); reflexivity). cbn [andb] in Gs. subst sp2.
    rewrite G1, F1, E1, G2, F2, E2, G3, G4, Eg. cbn [tag_text length]. rewrite !app_length. cbn [length app]. rewrite <- !app_assoc. cbn [app]. rewrite <- ?app_assoc. repeat split.
    + lia.
Qed.

(* ---- resolution ---- *)
Lemma strip_spec p s x : strip_prefix p s = Some x <-> s = p ++ x.
Proof.
  revert s. induction p as [|c p IH]; intros s; cbn; [split; congruence|]. destruct s as [|d s]; [split; discriminate|]. destruct (N.eqb_spec c d) as [->|].
  - rewrite IH. split; [intros ->; reflexivity|]. congruence.
  - split; [discriminate|congruence].
Qed.
Lemma match_spec tags s h x : match_tag tags s = Some (h, x) -> exists p, In (h, p) tags /\ s = p ++ x /\ x <> [].
Proof.
  induction tags as [|[h0 p0] tags IH]; [discriminate|]. cbn [match_tag]. destruct (strip_prefix p0 s) as [[|c y]|] eqn:E.
  - intros H. destruct (IH H) as (p & I & R). exists p. split; [right; exact I|exact R].
  - intros [= <- <-]. apply strip_spec in E. exists p0. split; [left; reflexivity|]. split; [exact E|discriminate].
  - intros H. destruct (IH H) as (p & I & R). exists p. split; [right; exact I|exact R].
Qed.
Lemma handle_utf8 h : valid_handle h -> utf8 h = h /\ h <> [].
Proof.
  intros [->|(n & -> & F)]; [split; [reflexivity|discriminate]|]. split; [|discriminate]. cbn [utf8 flat_map]. rewrite (enc_ascii 0x21) by lia. cbn [app]. f_equal. fold (utf8 (n ++ [0x21])). unfold utf8. rewrite flat_map_app. cbn [flat_map]. fold (utf8 n).
  rewrite (alphas_utf8 _ F). reflexivity.
Qed.
Lemma find_handle tags h p : Forall (fun t => valid_handle (fst t)) tags -> NoDup (map fst tags) -> In (h, p) tags ->
  find (fun td => str_eqb (fst td) h) (utf8_tags tags) = Some (h, utf8 p).
Proof.
  intros V ND I. induction tags as [|[h0 p0] tags IH]; [contradiction|]. inversion V as [|? ? V0 V']; subst. inversion ND as [|? ? N0 ND']; subst. cbn [utf8_tags map find fst snd].
  cbn [fst] in V0. rewrite (proj1 (handle_utf8 h0 V0)). cbn [fst map] in *. destruct I as [[= -> ->]|I].
  - rewrite str_eqb_refl. reflexivity.
  - destruct (str_eqb_spec h0 h) as [->|]; [exfalso; apply N0; apply in_map_iff; exists (h, p); auto|]. exact (IH V' ND' I).
Qed.

(* ---- which suffix is written ---- *)
Lemma match_shorthand tags t x : shorthand tags t x <-> exists h, match_tag tags t = Some (h, x).
Proof.
  split.
  - intros (l1 & h & p & l2 & -> & Et & Nx & First). exists h. induction l1 as [|[h0 p0] l1 IH]; cbn [app match_tag].
    + assert (E : strip_prefix p t = Some x) by (apply strip_spec; exact Et). rewrite E. destruct x; [contradiction|reflexivity].
    + destruct (strip_prefix p0 t) as [[|c y]|] eqn:E; [| |].
      * apply IH. intros h' p' z I. exact (First h' p' z (or_intror I)).
      * apply strip_spec in E. discriminate (First h0 p0 (c :: y) (or_introl eq_refl) E).
      * apply IH. intros h' p' z I. exact (First h' p' z (or_intror I)).
  - intros [h M]. induction tags as [|[h0 p0] tags IH]; [discriminate|]. cbn [match_tag] in M.
    assert (K : (forall y, t = p0 ++ y -> y = []) -> match_tag tags t = Some (h, x) -> shorthand ((h0, p0) :: tags) t x).
    { intros E M'. destruct (IH M') as (l1 & h1 & p & l2 & -> & Et & Nx & First). exists ((h0, p0) :: l1), h1, p, l2. split; [reflexivity|]. split; [exact Et|]. split; [exact Nx|].
      intros h' p' y [[= <- <-]|I]; [apply E|exact (First h' p' y I)]. }
    destruct (strip_prefix p0 t) as [[|c y]|] eqn:E.
    + apply strip_spec in E. apply K; [|exact M]. intros y Ey. rewrite E in Ey. apply app_inv_head in Ey. auto.
    + injection M as <- <-. apply strip_spec in E. exists [], h0, p0, tags. split; [reflexivity|]. split; [exact E|]. split; [discriminate|]. intros ? ? ? [].
    + apply K; [|exact M]. intros y Ey. apply strip_spec in Ey. congruence.
Qed.

Lemma uri_oks u x : Forall scalar_value x -> ~ In 0 x -> (u = true \/ (~ In 0x2C x /\ ~ In 0x5B x /\ ~ In 0x5D x)) -> Forall (uri_ok u) x.
Proof.
  intros S Z U. apply Forall_forall. intros c Hc. rewrite Forall_forall in S. split; [exact (S c Hc)|]. split; [intros ->; contradiction|].
  destruct U as [->|(A & B & C)]; [auto|]. right. repeat split; intros ->; contradiction.
Qed.
Lemma analyzed_tag tags t d d' : analyze_tag tags t d = inr d' -> a_handle d = None ->
  Forall (fun td => valid_handle (fst td)) tags -> NoDup (map fst tags) -> Forall scalar_value t -> ~ In 0 t -> suffixes_ok tags t ->
  has_tag d' = true /\ exists x, a_suffix d' = Some x /\ x <> [] /\ tag_fits (a_handle d') x /\
  exists h s, tag_tok (a_handle d') x = TTag h s /\ resolve_tag (utf8_tags tags) h s = Some (utf8 t).
Proof.
  intros A Hd V ND S Z Ok. unfold analyze_tag in A. destruct t as [|t0 t1] eqn:Et; [discriminate|]. rewrite <- Et in *. assert (Nt : t <> []) by (rewrite Et; discriminate). clear Et t0 t1. destruct (match_tag tags t) as [[h x]|] eqn:M.
  - injection A as <-. cbn [a_handle a_suffix has_tag]. split; [reflexivity|]. exists x. split; [reflexivity|]. destruct (match_spec _ _ _ _ M) as (p & I & E & Nx). split; [exact Nx|].
    assert (Vh : valid_handle h) by (rewrite Forall_forall in V; exact (V (h, p) I)).
    assert (Fx : Forall (uri_ok false) x).
    { rewrite E in S, Z. apply Forall_app in S as [_ S]. apply uri_oks; [exact S|intros J; apply Z; apply in_or_app; auto|right; apply Ok; apply match_shorthand; exists h; exact M]. }
    split.
    + split; [exact Fx|]. destruct Vh as [->|(n & -> & F)]; [right; reflexivity|left; exists n; auto].
    + exists h, (utf8 x). split; [destruct x; [contradiction|reflexivity]|]. unfold resolve_tag. destruct h as [|h0 h1] eqn:Eh; [exfalso; apply (proj2 (handle_utf8 _ Vh)); reflexivity|]. rewrite <- Eh in *.
      rewrite (find_handle tags h p V ND I). cbn [snd]. rewrite E. unfold utf8. rewrite flat_map_app. reflexivity.
  - injection A as <-. cbn [a_handle a_suffix has_tag]. rewrite Hd. split; [reflexivity|]. exists t. split; [reflexivity|]. split; [exact Nt|]. split.
    + split; [exact Nt|]. apply uri_oks; auto.
    + exists [], (utf8 t). split; [destruct t; reflexivity|]. reflexivity.
Qed.

(* ---- every buffer ---- *)
Lemma tag_any_buffer flow c t r tok : at_text c t -> nth 0 t 0 = 0x21 ->
  (exists m', scan_tag flow (fc t (c_mark c)) = COk tok (fc r m')) -> exists c', scan_tag flow c = COk tok c' /\ c_text c' = r.
Proof.
  intros (T & Bd & U) Z [m' E]. pose proof (free_scan_tag flow c (conj Bd (eq_ind_r (fun x => (c_unread c <= S (length x))%nat) (proj2 U) T))) as K. rewrite fc_full, T, E in K.
  assert (W : wp (scan_tag flow) c (fun _ _ => True) (epos t (c_mark c) (Some (c_mark c)))).
  { apply (p_scan_tag flow t (c_mark c) c); [|exact Z|auto]. split; [exact T|]. split; [reflexivity|]. lia. }
  unfold wp in W. destruct (scan_tag flow c) as [tk c'|er| |]; try contradiction; try discriminate.
  destruct K as [K _]. injection K as <- H2 _ H3. exists c'. auto.
Qed.
Lemma tag_text_head h x : tag_fits h x -> nth 0 (tag_text h x) 0 = 0x21 /\ tag_text h x <> [].
Proof. destruct h as [h|]; [|split; [reflexivity|discriminate]]. intros [_ [(n & -> & _)| ->]]; split; try reflexivity; discriminate. Qed.

Theorem tag_round_trip (flow : bool) m t d : analyze_tag (m_tags m) t no_data = inr d ->
  Forall (fun td => valid_handle (fst td)) (m_tags m) -> NoDup (map fst (m_tags m)) -> Forall scalar_value t -> ~ In 0 t -> suffixes_ok (m_tags m) t ->
  exists sp w, (sp = [] \/ sp = [0x20]) /\ written (m_pen (process_tag (set_data m d))) = written (m_pen m) ++ sp ++ w /\
    forall rest c, tag_follow flow rest -> at_text c (w ++ rest) ->
    exists h s e c', scan_tag flow c = COk (mkToken (TTag h s) (c_mark c) e false) c' /\ c_text c' = rest /\ resolve_tag (utf8_tags (m_tags m)) h s = Some (utf8 t).
Proof.
  intros A V ND S Z Ok. destruct (analyzed_tag _ _ _ _ A eq_refl V ND S Z Ok) as (Ht & x & Ex & Nx & Fx & h & s & Et & R).
  pose proof (process_tag_text (set_data m d)) as P. cbv zeta in P. change (m_data (set_data m d)) with d in P. rewrite Ht in P. destruct P as (P & _).
  exists (gap (m_pen m)), (tag_text (a_handle d) x). split; [unfold gap; destruct (p_white (m_pen m)); auto|]. split.
  { change written with chars. etransitivity; [exact P|]. unfold tag_written. rewrite Ex. destruct (a_handle d); reflexivity. }
  intros rest c Fl At. destruct (tag_text_head _ _ Fx) as [H0 Hn].
  edestruct (tag_any_buffer flow c _ rest (mkToken (TTag h s) (c_mark c) (next_column (nlen (tag_text (a_handle d) x)) (c_mark c)) false) At) as (c' & E & T').
  - destruct (tag_text (a_handle d) x); [contradiction|]. exact H0.
  - rewrite <- Et. eexists. apply scan_tag_run; assumption.
  - exists h, s, (next_column (nlen (tag_text (a_handle d) x)) (c_mark c)), c'. auto.
Qed.
