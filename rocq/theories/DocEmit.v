(* The emitter writes the texts of DocText: documents and streams. *)
From Verif Require Import Base ReaderModel Utf8Spec Utf8Lemmas CharSpec Types WriterModel WriterSpec ParserModel PenModel PenText EmitModel EmitSpec TreeSpec GrammarSpec AgreeSpec RoundSpec TagRun TagTrip DoubleTrip SingleTrip PlainTrip BlockTrip TextGrammar EmitRun EmitPen EmitLeaf EmitFlow EmitBlock DocText.
From Verif Require EmitInv ParserInv ScanStep ReadBlock DocRead.

(* ---- the tag directives in force ---- *)
Lemma str_eqb_sym a b : str_eqb a b = str_eqb b a.
Proof. exact (ParserInv.str_eqb_sym a b). Qed.
Lemma defaults_env m : each_tag (fun t m => append_tag m t true) default_tags m = EOk (set_tags m (env_of (m_tags m))).
Proof.
  assert (B : forall m t, append_tag m t true = if binds (m_tags m) (fst t) then EOk m else EOk (set_tags m (m_tags m ++ [t]))).
  { intros m0 t. unfold append_tag. match goal with |- (if ?b then _ else _) = _ => replace b with (binds (m_tags m0) (fst t)); [reflexivity|] end.
    unfold binds. induction (m_tags m0) as [|d l IH]; [reflexivity|]. cbn [existsb]. rewrite IH, str_eqb_sym. reflexivity. }
  unfold default_tags. cbn [each_tag]. rewrite B. unfold env_of. cbn [fst default_env filter]. destruct (binds (m_tags m) [0x21]) eqn:E1; cbn [negb ebind].
  - rewrite B. cbn [fst]. destruct (binds (m_tags m) [0x21; 0x21]) eqn:E2; cbn [negb ebind filter]; [rewrite app_nil_r; destruct m; reflexivity|reflexivity].
  - rewrite B. cbn [set_tags m_tags fst].
    match goal with |- context [binds ?l ?h] => lazymatch l with m_tags m => fail | _ => replace (binds l h) with (binds (m_tags m) h) by (unfold binds; rewrite existsb_app; cbn; rewrite orb_false_r; reflexivity) end end.
    destruct (binds (m_tags m) [0x21; 0x21]) eqn:E2; cbn [negb ebind filter]; [reflexivity|]. cbn. rewrite <- app_assoc. reflexivity.
Qed.
Lemma handle_utf8 h : valid_handle h -> utf8 h = h.
Proof.
  intros [->|(name & -> & F)]; [reflexivity|]. apply utf8_ascii. constructor; [lia|]. apply Forall_app. split; [|repeat constructor; lia]. eapply Forall_impl; [|exact F]. intros c. apply alpha_ascii.
Qed.
Lemma binds_in e h : binds e h = true <-> In h (map fst e).
Proof.
  unfold binds. rewrite existsb_exists. split.
  - intros (d & I & E). destruct (str_eqb_spec (fst d) h) as [E'|]; [|discriminate]. subst. apply in_map. exact I.
  - intros I. apply in_map_iff in I as (d & <- & I). exists d. split; [exact I|apply str_eqb_refl].
Qed.
Section Env.
Variable tags : list tagdir.
Hypothesis V : Forall (fun t => valid_handle (fst t) /\ snd t <> []) tags.
Hypothesis ND : NoDup (map fst tags).
Lemma handles_utf8 : map fst (utf8_tags tags) = map fst tags.
Proof. unfold utf8_tags. rewrite map_map. apply map_ext_in. intros t I. rewrite Forall_forall in V. apply handle_utf8, (V t I). Qed.
Lemma env_utf8 : utf8_tags (env_of tags) = env_of (utf8_tags tags).
Proof.
  unfold env_of. unfold utf8_tags at 1. rewrite map_app. fold (utf8_tags tags). f_equal.
  assert (E : forall h, binds (utf8_tags tags) h = binds tags h).
  { intros h. apply eq_true_iff_eq. rewrite !binds_in, handles_utf8. reflexivity. }
  cbn [default_env filter fst]. rewrite !E. destruct (binds tags [33]), (binds tags [33; 33]); reflexivity.
Qed.
Lemma env_handles : Forall (fun td => valid_handle (fst td)) (env_of tags).
Proof.
  apply Forall_app. split; [eapply Forall_impl; [|exact V]; intros t [H _]; exact H|]. apply Forall_forall. intros d I. apply filter_In in I as [I _].
  destruct I as [<-|[<-|[]]]; [left; reflexivity|right; exists []; split; [reflexivity|constructor]].
Qed.
Lemma env_nodup : NoDup (map fst (env_of tags)).
Proof.
  unfold env_of. rewrite map_app.
  assert (A : forall (a b : list (list N)), NoDup a -> NoDup b -> (forall x, In x a -> In x b -> False) -> NoDup (a ++ b)).
  { induction a as [|x a IH]; intros b Na Nb D; [exact Nb|]. inversion Na; subst. cbn [app]. constructor; [rewrite in_app_iff; intros [I|I]; [auto|exact (D x (or_introl eq_refl) I)]|]. apply IH; auto. intros y Ia Ib. exact (D y (or_intror Ia) Ib). }
  apply A; [exact ND| |].
  - cbn [default_env filter fst]. destruct (negb (binds tags [33])), (negb (binds tags [33; 33])); cbn [map fst]; repeat constructor; cbn; intuition discriminate.
  - intros h Ia Ib. apply in_map_iff in Ib as (d & <- & Id). apply filter_In in Id as [_ Id]. apply binds_in in Ia. rewrite Ia in Id. discriminate Id.
Qed.
Lemma env_resolves h s t : resolve_tag (utf8_tags (env_of tags)) h s = Some t -> resolves (env_of (utf8_tags tags)) h s t.
Proof. rewrite <- env_utf8. apply ParserInv.resolve_tag_sound. Qed.
End Env.

(* ---- lines ---- *)
Section Lines.
Variable g : cfg.
Notation B := (break_chars g).
Notation fresh := (pen_after true).
Lemma indent_zero p : write_indent g (-1)%Z p = write_indent g 0%Z p. Proof. reflexivity. Qed.
Lemma line_break_of nl p : pen_after nl p -> chars (write_indent g (-1)%Z p) = chars p ++ brk g nl /\ fresh (write_indent g (-1)%Z p).
Proof.
  intros A. rewrite indent_zero. destruct (after_indent g nl p 0 ltac:(lia) A) as (E1 & E2 & E3 & E4). rewrite E1. unfold spaces. cbn [Z.to_nat repeat]. rewrite app_nil_r. split; [reflexivity|]. split; [exact E4|split; assumption].
Qed.
Lemma indent_open i p : p_open (write_indent g i p) = p_open p.
Proof.
  unfold write_indent. cbn [set_white p_open]. rewrite (proj2 (proj2 (proj2 (pputs_state _ _)))). match goal with |- context [if ?b then _ else _] => destruct b end; reflexivity.
Qed.
Lemma word_on s p : p_white p = true -> chars (write_indicator s true false false p) = chars p ++ s /\ tight (write_indicator s true false false p).
Proof.
  intros W. destruct (indicator_is s true false false p) as (E1 & _ & E3 & E4). rewrite W in E1. rewrite andb_false_r in E4. split; [exact E1|]. split; assumption.
Qed.
Lemma word_line s p : fresh p -> chars (write_indent g (-1)%Z (write_indicator s true false false p)) = chars p ++ s ++ B /\ fresh (write_indent g (-1)%Z (write_indicator s true false false p)).
Proof.
  intros (_ & _ & W). destruct (word_on s p W) as (E & T). destruct (line_break_of false _ (tight_after _ T)) as [E2 F]. rewrite E2, E, <- app_assoc. auto.
Qed.
Definition yaml_pen (v : version) (p : pen) : pen :=
  write_indent g (-1)%Z (write_indicator (if snd v =? 1 then [0x31; 0x2E; 0x31] else [0x31; 0x2E; 0x32]) true false false (write_indicator s_yaml true false false p)).
Lemma yaml_written v p : analyze_version v = None -> fresh p -> chars (yaml_pen v p) = chars p ++ yaml_line g v /\ fresh (yaml_pen v p).
Proof.
  intros A (_ & _ & W). unfold yaml_pen. destruct (word_on s_yaml p W) as (E & T).
  set (s := if snd v =? 1 then [0x31; 0x2E; 0x31] else [0x31; 0x2E; 0x32]). destruct (indicator_is s true false false (write_indicator s_yaml true false false p)) as (E1 & _ & E3 & E4).
  rewrite (proj1 T), E in E1. rewrite andb_false_r in E4. destruct (line_break_of false _ E4) as [E5 F]. split; [|exact F]. rewrite E5, E1.
  unfold analyze_version in A. destruct v as [a b]. cbn [fst snd] in *. destruct (N.eqb_spec a 1) as [->|]; [|discriminate A]. cbn [negb orb] in A.
  unfold s, yaml_line. cbn [fst snd]. destruct (N.eqb_spec b 1) as [->|]; [rewrite <- !app_assoc; reflexivity|]. destruct (N.eqb_spec b 2) as [->|]; [rewrite <- !app_assoc; reflexivity|discriminate A].
Qed.
Definition tag_pen (p : pen) (t : tagdir) : pen :=
  write_indent g (-1)%Z (write_tag_content (snd t) true (write_tag_handle (fst t) (write_indicator s_tag true false false p))).
Lemma tag_line_written t p : fresh p -> chars (tag_pen p t) = chars p ++ tag_line g t /\ fresh (tag_pen p t).
Proof.
  intros (_ & _ & W). unfold tag_pen. destruct (word_on s_tag p W) as (E & T). destruct (handle_text (fst t) (write_indicator s_tag true false false p)) as (H1 & _ & H3 & H4).
  set (q := write_tag_handle (fst t) (write_indicator s_tag true false false p)) in *.
  assert (C : chars (write_tag_content (snd t) true q) = chars q ++ 0x20 :: flat_map tag_char (snd t) /\ p_indention (write_tag_content (snd t) true q) = false).
  { unfold write_tag_content. rewrite H3. cbn [andb negb space_if]. rewrite chars_white, chars_puts, chars_put, <- app_assoc. split; reflexivity. }
  destruct C as [C1 C2]. destruct (line_break_of false _ C2) as [E5 F]. split; [|exact F]. rewrite E5, C1, H1, E. unfold gap. rewrite (proj1 T). unfold tag_line. cbn [brk].
  repeat (rewrite <- !app_assoc; cbn [app]). reflexivity.
Qed.
Lemma tags_written tags : forall p, fresh p -> chars (fold_left tag_pen tags p) = chars p ++ flat_map (tag_line g) tags /\ fresh (fold_left tag_pen tags p).
Proof.
  induction tags as [|t tags IH]; intros p F; cbn [fold_left flat_map]; [rewrite app_nil_r; auto|]. destruct (tag_line_written t p F) as [E F2]. destruct (IH _ F2) as [E2 F3]. split; [|exact F3]. rewrite E2, E, <- app_assoc. reflexivity.
Qed.
(* before the content *)
Definition start_pen (v : option version) (tags : list tagdir) (implicit : bool) (p : pen) : pen :=
  let p := if has_directives v tags && negb (p_open p =? 0) then write_indent g (-1)%Z (write_indicator s_dots true false false p) else p in
  let p := set_open p 0 in
  let p := match v with Some v => yaml_pen v p | None => p end in
  let p := fold_left tag_pen tags p in
  let p := if negb implicit
           then let p := write_indicator s_dashes true false false (write_indent g (-1)%Z p) in if g_canonical g then write_indent g (-1)%Z p else p
           else p in
  set_open p 0.
Lemma start_written v tags implicit p : (forall x, v = Some x -> analyze_version x = None) -> fresh p ->
  chars (start_pen v tags implicit p) = chars p ++ dots g (if has_directives v tags && negb (p_open p =? 0) then 1 else 0) ++ directive_lines g v tags ++
    (if implicit then [] else dash3 ++ if g_canonical g then B else []) /\
  (if implicit || g_canonical g then fresh (start_pen v tags implicit p) else tight (start_pen v tags implicit p)).
Proof.
  intros A F. unfold start_pen. set (b := has_directives v tags && negb (p_open p =? 0)).
  assert (S1 : exists p1, p1 = set_open (if b then write_indent g (-1)%Z (write_indicator s_dots true false false p) else p) 0 /\ chars p1 = chars p ++ dots g (if b then 1 else 0) /\ fresh p1).
  { eexists. split; [reflexivity|]. destruct b.
    - destruct (word_line s_dots p F) as [E F1]. rewrite chars_open, E. unfold dots. cbn [repeat concat]. rewrite app_nil_r. split; [reflexivity|exact F1].
    - rewrite chars_open. unfold dots. cbn [repeat concat]. rewrite app_nil_r. split; [reflexivity|exact F]. }
  destruct S1 as (p1 & <- & C1 & F1).
  assert (S2 : exists p2, p2 = (match v with Some v => yaml_pen v p1 | None => p1 end) /\ chars p2 = chars p1 ++ match v with Some v => yaml_line g v | None => [] end /\ fresh p2).
  { eexists. split; [reflexivity|]. destruct v as [v|]; [apply yaml_written; auto|rewrite app_nil_r; auto]. }
  destruct S2 as (p2 & <- & C2 & F2). destruct (tags_written tags p2 F2) as [C3 F3]. set (p3 := fold_left tag_pen tags p2) in *.
  assert (C : chars p3 = chars p ++ dots g (if b then 1 else 0) ++ directive_lines g v tags) by (rewrite C3, C2, C1; unfold directive_lines; rewrite <- !app_assoc; reflexivity).
  destruct implicit; cbn [negb orb].
  - rewrite chars_open, C. split; [rewrite app_nil_r; reflexivity|exact F3].
  - destruct (line_break_of true p3 F3) as [C4 F4]. cbn [brk] in C4. rewrite app_nil_r in C4.
    destruct (g_canonical g).
    + destruct (word_line s_dashes _ F4) as [C5 F5]. rewrite chars_open, C5, C4, C. split; [|exact F5]. rewrite <- !app_assoc. reflexivity.
    + destruct (word_on s_dashes (write_indent g (-1)%Z p3) (proj2 (proj2 F4))) as [C5 F5]. rewrite chars_open, C5, C4, C. split; [|exact F5]. rewrite <- !app_assoc, app_nil_r. reflexivity.
Qed.
End Lines.

(* ---- the beginning of a document ---- *)
Section Doc.
Variable g : cfg.
Hypothesis Hind : (2 <= g_indent g <= 9)%Z.
Notation fresh := (pen_after true).
Notation canonical := (g_canonical g).

Lemma tags_fold T s ss l is mp si d tags : forall p,
  fold_left (fun m t => indent_ (on_pen (write_tag_content (snd t) true) (on_pen (write_tag_handle (fst t)) (indicator s_tag true false false m)))) tags (em g T s ss l (-1)%Z is 0 p mp si d) =
  em g T s ss l (-1)%Z is 0 (fold_left (tag_pen g) tags p) mp si d.
Proof. induction tags as [|t tags IH]; intros p; [reflexivity|]. cbn [fold_left]. rewrite <- IH. reflexivity. Qed.
Definition start_implicit (implicit first : bool) (v : option version) (tags : list tagdir) : bool := implicit && first && negb canonical && negb (has_directives v tags).
Lemma version_valid v : analyze_version v = None <-> fst v = 1 /\ (snd v = 1 \/ snd v = 2).
Proof.
  unfold analyze_version. destruct v as [a b]. cbn [fst snd]. destruct (N.eqb_spec a 1), (N.eqb_spec b 1), (N.eqb_spec b 2); cbn; split; intros H; try discriminate; try lia; try reflexivity; auto.
Qed.
Lemma doc_start_run s ss l is p mp si d v tags implicit first m1 :
  emit_document_start (em g [] s ss l (-1)%Z is 0 p mp si d) (EDocStart v tags implicit) first = EOk m1 ->
  valid_directives v tags /\ m1 = em g (env_of tags) DocContent ss l (-1)%Z is 0 (start_pen g v tags (start_implicit implicit first v tags) p) mp si d.
Proof.
  unfold emit_document_start. intros R.
  remember (match v with Some v => analyze_version v | None => None end) as a eqn:A. destruct a; cbn [fail_if ebind] in R; [discriminate R|]. symmetry in A.
  fold EmitInv.tag_step in R. destruct (EmitInv.directive_tags tags (em g [] s ss l (-1)%Z is 0 p mp si d)) as [(V & N & _ & E)|(_ & x & m' & E & _)]; rewrite E in R; cbn [ebind] in R; [|discriminate R].
  rewrite defaults_env in R. cbn [ebind] in R.
  assert (Vd : valid_directives v tags).
  { split; [|split; assumption]. intros a b ->. apply version_valid in A. exact A. }
  split; [exact Vd|].
  change (set_tags (set_tags (em g [] s ss l (-1)%Z is 0 p mp si d) (m_tags (em g [] s ss l (-1)%Z is 0 p mp si d) ++ tags)) (env_of (m_tags (set_tags (em g [] s ss l (-1)%Z is 0 p mp si d) (m_tags (em g [] s ss l (-1)%Z is 0 p mp si d) ++ tags))))) with (em g (env_of tags) s ss l (-1)%Z is 0 p mp si d) in R.
  cbv zeta in R. change (m_cfg (em g (env_of tags) s ss l (-1)%Z is 0 p mp si d)) with g in R. change (m_pen (em g (env_of tags) s ss l (-1)%Z is 0 p mp si d)) with p in R.
  fold (start_implicit implicit first v tags) in R.
  unfold start_pen. cbv zeta. set (b := has_directives v tags && negb (p_open p =? 0)) in *. set (im := start_implicit implicit first v tags) in *.
  replace (if b then indent_ (indicator s_dots true false false (em g (env_of tags) s ss l (-1)%Z is 0 p mp si d)) else em g (env_of tags) s ss l (-1)%Z is 0 p mp si d)
    with (em g (env_of tags) s ss l (-1)%Z is 0 (if b then write_indent g (-1)%Z (write_indicator s_dots true false false p) else p) mp si d) in R by (destruct b; reflexivity).
  set (p1 := if b then _ else p) in *.
  change (on_pen (fun p => set_open p 0) (em g (env_of tags) s ss l (-1)%Z is 0 p1 mp si d)) with (em g (env_of tags) s ss l (-1)%Z is 0 (set_open p1 0) mp si d) in R.
  set (m2 := match v with Some v => indent_ _ | None => _ end) in R.
  assert (E2 : m2 = em g (env_of tags) s ss l (-1)%Z is 0 (match v with Some v => yaml_pen g v (set_open p1 0) | None => set_open p1 0 end) mp si d) by (subst m2; destruct v; reflexivity).
  rewrite E2, tags_fold in R. clear m2 E2. set (p3 := fold_left (tag_pen g) tags _) in *. injection R as <-. destruct im; [reflexivity|]. cbn [negb]. change (m_cfg (indicator s_dashes true false false (indent_ (em g (env_of tags) s ss l (-1)%Z is 0 p3 mp si d)))) with g.
  destruct canonical; reflexivity.
Qed.

(* ---- one document ---- *)
Notation doc_nice := (doc_nice canonical (g_indent g) (g_width g)).
Definition end_dots (n : nat) (p : pen) : Prop := match n with O => p_open p <> 0 | _ => p_open p = 0 end.

Lemma doc_run d (first : bool) p es mf : doc_nice d -> fresh p ->
  resumes g [] (if first then FirstDocStart else DocStart) [] (-1)%Z [] 0 p (doc_events d ++ es) mf ->
  let implicit := start_implicit (dt_start_implicit d) first (dt_version d) (dt_tags d) in
  exists p2 ws w nl x' k, resumes g [] DocStart [] (-1)%Z [] 0 p2 es mf /\ fresh p2 /\ end_dots k p2 /\ (dt_end_implicit d = false -> k <> O) /\
    agrees canonical (dt_root d) x' /\ valid_directives (dt_version d) (dt_tags d) /\
    btext g (env_of (utf8_tags (dt_tags d))) false (-1)%Z (implicit || canonical) (if implicit || canonical then Some 0%Z else None) x' ws w nl /\
    chars p2 = chars p ++ dots g (if has_directives (dt_version d) (dt_tags d) && negb (p_open p =? 0) then 1 else 0) ++ directive_lines g (dt_version d) (dt_tags d) ++
      (if implicit then [] else dash3 ++ if canonical then break_chars g else []) ++ ws ++ w ++ brk g nl ++ dots g k.
Proof.
  intros [Hp Hn] F R. cbv zeta. set (im := start_implicit _ _ _ _). unfold doc_events in R. cbn [app] in R.
  destruct (resumed g [] _ _ _ _ _ _ _ _ _ R) as (mp & si & d0 & m1 & _ & S & R1).
  assert (S1 : emit_document_start (em g [] (if first then FirstDocStart else DocStart) [] (EDocStart (dt_version d) (dt_tags d) (dt_start_implicit d) :: (events_of (dt_root d) ++ [EDocEnd (dt_end_implicit d)]) ++ es) (-1)%Z [] 0 p mp si d0)
     (EDocStart (dt_version d) (dt_tags d) (dt_start_implicit d)) first = EOk m1) by (destruct first; exact S).
  apply doc_start_run in S1 as [Vd ->]. fold im in R1. set (p1 := start_pen g (dt_version d) (dt_tags d) im p) in *.
  destruct (start_written g (dt_version d) (dt_tags d) im p) as [C1 F1]; [|exact F|].
  { intros [a b] Ev. apply version_valid. destruct Vd as [Vv _]. exact (Vv a b Ev). }
  fold p1 in C1, F1. destruct Vd as (Vv & Vt & Nd).
  set (T := env_of (dt_tags d)) in *. set (e := env_of (utf8_tags (dt_tags d))).
  assert (Ro : opens g T false false [DocEnd] (-1)%Z [] 0 p1 (events_of (dt_root d) ++ [EDocEnd (dt_end_implicit d)] ++ es) mf).
  { assert (Ne : exists x r, events_of (dt_root d) = x :: r) by (destruct (dt_root d); cbn; eauto). destruct Ne as (x & r & Ne). rewrite Ne in *. cbn [app] in R1 |- *. rewrite <- app_assoc in R1.
    destruct (stepped g T _ _ _ _ _ _ _ _ _ _ _ _ _ R1) as (d' & m2 & A & S2 & R2). unfold opens. exists DocContent, mp, si, x, (r ++ [EDocEnd (dt_end_implicit d)] ++ es), d', m2. split; [reflexivity|]. split; [exact A|]. split; [exact S2|exact R2]. }
  assert (Rd : ready g (-1)%Z p1).
  { intros I. destruct (im || canonical); [destruct F1 as (_ & C & W); rewrite C, W; split; [cbn; lia|discriminate]|]. destruct F1 as [_ F1]. congruence. }
  destruct (block_run g T e (doc_limit (g_indent g) d) Hind (env_handles _ Vt) (env_nodup _ Nd) (env_resolves _ Vt) (dt_root d) false DocEnd [] (-1)%Z [] p1 ([EDocEnd (dt_end_implicit d)] ++ es) mf)
    as (p2 & ws & w & nl & x' & R2 & C2 & T2 & P2 & A2); [lia|discriminate|unfold EmitFlow.fits, doc_limit; lia|exact Hn|exact Rd|exact Ro|].
  cbn [app] in R2. destruct (resumed g T _ _ _ _ _ _ _ _ _ R2) as (mp3 & si3 & d3 & m3 & _ & S3 & R3). change (emit_document_end (em g T DocEnd [] (EDocEnd (dt_end_implicit d) :: es) (-1)%Z [] 0 p2 mp3 si3 d3) (EDocEnd (dt_end_implicit d)) = EOk m3) in S3. unfold emit_document_end in S3. cbv zeta in S3. assert (Inj : forall a b, EOk a = EOk b -> a = b) by (intros a b E; congruence). apply Inj in S3. subst m3.
  destruct (line_break_of g nl p2 P2) as [C3 F3]. set (p3 := write_indent g (-1)%Z p2) in *.
  change (indent_ (em g T DocEnd [] (EDocEnd (dt_end_implicit d) :: es) (-1)%Z [] 0 p2 mp3 si3 d3)) with (em g T DocEnd [] (EDocEnd (dt_end_implicit d) :: es) (-1)%Z [] 0 p3 mp3 si3 d3) in R3.
  assert (Tb : btext g e false (-1)%Z (im || canonical) (if im || canonical then Some 0%Z else None) x' ws w nl).
  { unfold comp_of in T2. destruct (im || canonical); [destruct F1 as (I & C & W); rewrite I, C, W in T2; exact T2|]. destruct F1 as [W I]. rewrite I, W in T2. exact T2. }
  assert (Fin : exists p4 k, run es (em g [] DocStart [] (EDocEnd (dt_end_implicit d) :: es) (-1)%Z [] 0 p4 mp3 si3 d3) = EOk mf /\ chars p4 = chars p3 ++ dots g k /\ fresh p4 /\ end_dots k p4 /\ (dt_end_implicit d = false -> k <> O)).
  { destruct (dt_end_implicit d); cbn [negb] in R3.
    - change (m_pen (em g T DocEnd [] (EDocEnd true :: es) (-1)%Z [] 0 p3 mp3 si3 d3)) with p3 in R3.
      exists (pop_ (if p_open p3 =? 0 then set_open p3 1 else p3) CFlush (p_column p3)), O.
      split; [destruct (p_open p3 =? 0); exact R3|]. split; [|split; [|split; [|discriminate]]].
      + rewrite chars_pop. unfold dots. cbn [repeat concat chars_of flat_map]. rewrite !app_nil_r. destruct (p_open p3 =? 0); reflexivity.
      + destruct (p_open p3 =? 0); exact F3.
      + cbn [end_dots]. destruct (N.eqb_spec (p_open p3) 0) as [E|E]; [discriminate|exact E].
    - set (p4 := write_indent g (-1)%Z (set_open (write_indicator s_dots true false false p3) 0)).
      destruct (word_on s_dots p3 (proj2 (proj2 F3))) as [C4 [W4 I4]].
      assert (P4 : pen_after false (set_open (write_indicator s_dots true false false p3) 0)) by exact I4. destruct (line_break_of g false _ P4) as [C5 F5]. fold p4 in C5, F5.
      exists (pop_ p4 CFlush (p_column p4)), 1%nat. split; [exact R3|]. split; [|split; [|split; [|discriminate]]].
      + rewrite chars_pop, C5, chars_open, C4. unfold dots. cbn [repeat concat chars_of flat_map]. rewrite !app_nil_r, <- app_assoc. reflexivity.
      + exact F5.
      + cbn [end_dots pop_ p_open]. unfold p4. rewrite indent_open. reflexivity. }
  destruct Fin as (p4 & k & R4 & C4 & F4 & D4 & K4).
  exists p4, ws, w, nl, x', k. split; [exists (EDocEnd (dt_end_implicit d) :: es), mp3, si3, d3; exact R4|]. split; [exact F4|]. split; [exact D4|]. split; [exact K4|]. split; [exact A2|]. split; [split; [exact Vv|split; assumption]|]. split; [exact Tb|].
  rewrite C4, C3, C2, C1. rewrite <- !app_assoc. reflexivity.
Qed.

(* ---- all documents ---- *)
Hypothesis Hbreak : g_break g <> AnyBreak.
Lemma agrees_null c x : agrees c x null -> c = false /\ empty_plain x.
Proof.
  unfold null. intros A. inversion A as [|a t t' v pi qi pi' qi' style style' Tg St Fl| |]; subst. destruct v as [|y v]; [|cbn in *; match goal with H : _ = [] |- _ => apply (f_equal (@length N)) in H; rewrite app_length in H; cbn in H; destruct (utf8_enc y) eqn:E; [|discriminate H]; destruct (utf8_enc_nonempty y E) end].
  destruct St as [St|[-> St]]; [discriminate|]. split; [reflexivity|]. cbn [orb] in Tg. unfold scalar_tag_read in Tg.
  assert (pi = true) as -> by (destruct pi; [reflexivity|]; cbn [orb negb andb] in Tg; destruct qi; cbn in Tg; [destruct Tg as [Tg _]; exact Tg|]; destruct t; [discriminate|destruct Tg as [Tg _]; exact Tg]).
  exists t, qi, style. split; [reflexivity|]. destruct style; try discriminate; auto.
Qed.
Lemma dots_plus a b : dots g (a + b) = dots g a ++ dots g b.
Proof. unfold dots. rewrite repeat_app, concat_app. reflexivity. Qed.
Lemma docs_run ds : forall p mf, Forall doc_nice ds -> fresh p ->
  resumes g [] DocStart [] (-1)%Z [] 0 p (flat_map doc_events ds ++ [EStreamEnd]) mf ->
  m_cfg mf = g /\ exists n rest ds', chars (m_pen mf) = chars p ++ dots g n ++ rest /\ docs_text g ds' rest /\ Forall2 (doc_agrees canonical) ds ds' /\
    (p_open p = 0 -> n = O) /\ (p_open p <> 0 -> n = O -> ScanStep.document_ends rest).
Proof.
  induction ds as [|d ds IH]; intros p mf Hn F R.
  - cbn [flat_map app] in R. destruct (resumed g [] _ _ _ _ _ _ _ _ _ R) as (mp & si & d0 & m1 & _ & S & R1). cbn [run] in R1. injection R1 as R1.
    change (emit_document_start (em g [] DocStart [] [EStreamEnd] (-1)%Z [] 0 p mp si d0) EStreamEnd false = EOk m1) in S. unfold emit_document_start in S.
    assert (Inj : forall a b, EOk a = EOk b -> a = b) by (intros a b E; congruence). apply Inj in S.
    change (m_pen (em g [] DocStart [] [EStreamEnd] (-1)%Z [] 0 p mp si d0)) with p in S.
    assert (C : chars (m_pen mf) = chars (m_pen m1)) by (rewrite <- R1; reflexivity). assert (G : m_cfg mf = m_cfg m1) by (rewrite <- R1; reflexivity). rewrite C, G. clear C G R1. subst m1.
    split; [destruct (p_open p =? 2); reflexivity|].
    exists (if p_open p =? 2 then 1%nat else 0%nat), [], []. split; [|split; [constructor|split; [constructor|split; [|intros; left; reflexivity]]]].
    + rewrite app_nil_r. cbn [set_state on_pen m_pen set_pen]. destruct (p_open p =? 2).
      * cbn [indent_ indicator on_pen set_pen m_pen em m_cfg m_indent]. rewrite chars_pop. cbn [chars_of flat_map]. rewrite app_nil_r.
        destruct (word_on s_dots p (proj2 (proj2 F))) as [C4 [W4 I4]]. destruct (line_break_of g false (set_open (write_indicator s_dots true false false p) 0) I4) as [C5 _].
        match goal with |- chars ?x = _ => change x with (write_indent g (-1)%Z (set_open (write_indicator s_dots true false false p) 0)) end.
        rewrite C5, chars_open, C4. unfold dots. cbn [repeat concat brk]. rewrite app_nil_r, <- app_assoc. reflexivity.
      * cbn [em m_pen]. rewrite chars_pop. reflexivity.
    + destruct (N.eqb_spec (p_open p) 2); [lia|reflexivity].
  - inversion Hn as [|? ? Hd Hs]; subst. cbn [flat_map] in R. rewrite <- app_assoc in R.
    destruct (doc_run d false p _ mf Hd F R) as (p2 & ws & w & nl & x' & k & R2 & F2 & D2 & K2 & A2 & V2 & T2 & C2).
    destruct (IH p2 mf Hs F2 R2) as (G3 & n & rest & ds' & C3 & T3 & A3 & N3 & E3).
    assert (Im : start_implicit (dt_start_implicit d) false (dt_version d) (dt_tags d) = false) by (unfold start_implicit; rewrite andb_false_r; reflexivity).
    rewrite Im in T2, C2. cbn [orb] in T2.
    assert (E : (k + n)%nat = O -> ScanStep.document_ends rest).
    { intros Z. assert (k = O /\ n = O) as [-> ->] by lia. apply E3; [exact D2|reflexivity]. }
    split; [exact G3|]. exists (if has_directives (dt_version d) (dt_tags d) && negb (p_open p =? 0) then 1%nat else 0%nat),
      (directive_lines g (dt_version d) (dt_tags d) ++ dash3 ++ (if canonical then break_chars g else []) ++ ws ++ w ++ brk g nl ++ dots g (k + n) ++ rest),
      (mkDocTree (dt_version d) (utf8_tags (dt_tags d)) false x' (no_end (k + n)) :: ds').
    split; [rewrite C3, C2, dots_plus, <- !app_assoc; reflexivity|]. split; [|split; [|split]].
    + apply DX_doc; [exact V2|apply Hd|exact T2| |exact E|exact T3]. intros Cn ->. destruct (agrees_null _ _ A2) as [A4 _]. congruence.
    + constructor; [|exact A3]. split; [reflexivity|]. split; [reflexivity|]. split; [reflexivity|]. split; [|exact A2]. intros Z. specialize (K2 Z). cbn [dt_end_implicit]. destruct k; [congruence|reflexivity].
    + intros Z. rewrite Z. cbn. rewrite andb_false_r. reflexivity.
    + intros Z1 Z2. right. destruct (has_directives (dt_version d) (dt_tags d)) eqn:Hd'; [destruct (N.eqb_spec (p_open p) 0); [contradiction|discriminate Z2]|].
      destruct (dt_version d); [discriminate|]. destruct (dt_tags d) eqn:Tg; [|discriminate]. exists 0x2D. eexists. split; [left; reflexivity|]. split; [reflexivity|].
      pose proof (DocRead.dots_end g Hbreak (k + n) rest E) as De.
      destruct canonical; [apply (ReadBlock.break_blankz g Hbreak)|]. cbn [app]. rewrite (app_assoc ws). eapply (ReadBlock.block_blankz g _ Hbreak _ _ _ _ _ _ _ _ (dots g (k + n) ++ rest) 0); [exact T2|].
      split; [reflexivity|]. split; [apply ScanStep.ends_starts; exact De|]. right. auto.
Qed.

Theorem first_run ds p mf : Forall doc_nice ds -> (forall d r, ds = d :: r -> ~ invisible canonical d) -> fresh p -> p_open p = 0 ->
  resumes g [] FirstDocStart [] (-1)%Z [] 0 p (flat_map doc_events ds ++ [EStreamEnd]) mf ->
  m_cfg mf = g /\ exists rest ds', chars (m_pen mf) = chars p ++ rest /\ stream_text g ds' rest /\ Forall2 (doc_agrees canonical) ds ds'.
Proof.
  intros Hn Vi F Op R. destruct ds as [|d ds].
  - cbn [flat_map app] in R. destruct (resumed g [] _ _ _ _ _ _ _ _ _ R) as (mp & si & d0 & m1 & _ & S & R1). cbn [run] in R1. injection R1 as R1.
    change (emit_document_start (em g [] FirstDocStart [] [EStreamEnd] (-1)%Z [] 0 p mp si d0) EStreamEnd true = EOk m1) in S. unfold emit_document_start in S.
    change (m_pen (em g [] FirstDocStart [] [EStreamEnd] (-1)%Z [] 0 p mp si d0)) with p in S. rewrite Op in S. cbn in S. injection S as <-.
    rewrite <- R1. split; [reflexivity|]. exists [], []. split; [|split; [constructor; constructor|constructor]]. rewrite app_nil_r. change (chars (pop_ p CFlush (p_column p)) = chars p). rewrite chars_pop. apply app_nil_r.
  - inversion Hn as [|? ? Hd Hs]; subst. cbn [flat_map] in R. rewrite <- app_assoc in R.
    destruct (doc_run d true p _ mf Hd F R) as (p2 & ws & w & nl & x' & k & R2 & F2 & D2 & K2 & A2 & V2 & T2 & C2).
    destruct (docs_run ds p2 mf Hs F2 R2) as (G3 & n & rest & ds' & C3 & T3 & A3 & N3 & E3).
    rewrite Op in C2. cbn [N.eqb negb] in C2. rewrite andb_false_r in C2. change (dots g 0) with (@nil N) in C2. cbn [app] in C2.
    assert (E : (k + n)%nat = O -> ScanStep.document_ends rest).
    { intros Z. assert (k = O /\ n = O) as [-> ->] by lia. apply E3; [exact D2|reflexivity]. }
    split; [exact G3|].
    destruct (start_implicit (dt_start_implicit d) true (dt_version d) (dt_tags d)) eqn:Im.
    + unfold start_implicit in Im. apply andb_true_iff in Im as [Im Nd]. apply andb_true_iff in Im as [Im Nc]. apply andb_true_iff in Im as [Im _].
      cbn [orb] in T2. assert (canonical = false) as Ec by (destruct canonical; [discriminate|reflexivity]).
      destruct (dt_version d) eqn:Ev; [discriminate|]. destruct (dt_tags d) eqn:Et; [|discriminate]. cbn [directive_lines flat_map app] in C2.
      exists (ws ++ w ++ brk g nl ++ dots g (k + n) ++ rest), (mkDocTree None [] true x' (no_end (k + n)) :: ds').
      split; [rewrite C3, C2, dots_plus, <- !app_assoc; reflexivity|]. split.
      * apply SX_implicit; [exact T2| |exact E|exact T3]. intros ->. destruct (agrees_null _ _ A2) as [_ A4]. apply (Vi d ds eq_refl). repeat split; assumption.
      * constructor; [|exact A3]. split; [exact (eq_sym Ev)|]. split; [rewrite Et; reflexivity|]. split; [intros [Z|Z]; congruence|]. split; [|exact A2]. intros Z. specialize (K2 Z). cbn [dt_end_implicit]. destruct k; [congruence|reflexivity].
    + cbn [orb] in T2.
      exists (directive_lines g (dt_version d) (dt_tags d) ++ dash3 ++ (if canonical then break_chars g else []) ++ ws ++ w ++ brk g nl ++ dots g (k + n) ++ rest),
        (mkDocTree (dt_version d) (utf8_tags (dt_tags d)) false x' (no_end (k + n)) :: ds').
      split; [rewrite C3, C2, dots_plus, <- !app_assoc; reflexivity|]. split.
      * constructor. apply DX_doc; [exact V2|apply Hd|exact T2| |exact E|exact T3]. intros Cn ->. destruct (agrees_null _ _ A2) as [A4 _]. congruence.
      * constructor; [|exact A3]. split; [reflexivity|]. split; [reflexivity|]. split; [reflexivity|]. split; [|exact A2]. intros Z. specialize (K2 Z). cbn [dt_end_implicit]. destruct k; [congruence|reflexivity].
Qed.
End Doc.

(* ---- the stream ---- *)
Lemma normal_cfg g enc : (2 <= g_indent (normalise g enc) <= 9)%Z /\ g_break (normalise g enc) <> AnyBreak /\ g_canonical (normalise g enc) = g_canonical g.
Proof.
  unfold normalise. cbn. split; [|split; [destruct (g_break g); discriminate|reflexivity]]. destruct (Z.ltb_spec (g_indent g) 2); cbn [orb]; [lia|]. destruct (Z.gtb_spec (g_indent g) 9); lia.
Qed.
Theorem stream_run g enc ds mf : Forall (doc_nice (g_canonical g) (g_indent (normalise g enc)) (g_width (normalise g enc))) ds -> (forall d r, ds = d :: r -> ~ invisible (g_canonical g) d) ->
  run (stream_events (mkStreamTree enc ds)) (init_emitter g) = EOk mf ->
  m_cfg mf = normalise g enc /\ exists body ds', chars (m_pen mf) = (if encoding_eqb (g_encoding (normalise g enc)) Utf8Enc then [] else [0xFEFF]) ++ body /\
    stream_text (normalise g enc) ds' body /\ Forall2 (doc_agrees (g_canonical g)) ds ds'.
Proof.
  intros Hn Vi R. destruct (normal_cfg g enc) as (Hi & Hb & Hc). unfold stream_events in R. cbn [st_encoding st_docs] in R.
  set (g' := normalise g enc) in *.
  set (p0 := mkPen [] 0 true true 0). set (p := if encoding_eqb (g_encoding g') Utf8Enc then p0 else write_bom p0).
  assert (Rs : resumes g' [] FirstDocStart [] (-1)%Z [] 0 p (flat_map doc_events ds ++ [EStreamEnd]) mf).
  { cbn [run] in R. unfold emit_one in R. cbn [init_emitter set_events m_cfg m_tags analyze_event set_data state_machine m_state] in R.
    unfold emit_stream_start in R. cbn [on_pen set_pen m_cfg] in R. fold g' in R. cbn [ebind] in R.
    exists (flat_map doc_events ds ++ [EStreamEnd]), false, false, no_data. match type of R with context [encoding_eqb ?x _] => change x with (g_encoding g') in R end. unfold p. destruct (encoding_eqb (g_encoding g') Utf8Enc); exact R. }
  assert (F : pen_after true p) by (unfold p; destruct (encoding_eqb (g_encoding g') Utf8Enc); repeat split).
  assert (O : p_open p = 0) by (unfold p; destruct (encoding_eqb (g_encoding g') Utf8Enc); reflexivity).
  rewrite <- Hc in *.
  destruct (first_run g' Hi Hb ds p mf Hn Vi F O Rs) as (G & body & ds' & C & T & A). split; [exact G|]. exists body, ds'. split; [|split; assumption]. rewrite C. f_equal.
  unfold p. destruct (encoding_eqb (g_encoding g') Utf8Enc); reflexivity.
Qed.

