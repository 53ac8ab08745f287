(* What the writers of scalars leave behind. *)
From Verif Require Import Base ReaderModel Utf8Spec Utf8Lemmas CharSpec Types WriterModel WriterSpec PenModel PenText EmitModel RoundSpec TagRun TagTrip DoubleTrip SingleTrip PlainTrip BlockTrip TextGrammar.

Definition tight (p : pen) : Prop := p_white p = false /\ p_indention p = false.
Definition flat (w : list N) : Prop := existsb is_break w = false.
(* the last character written is a line break, or not *)
Definition pen_after (nl : bool) (p : pen) : Prop :=
  if nl then p_indention p = true /\ p_column p = 0%Z /\ p_white p = true else p_indention p = false.
Lemma tight_after p : tight p -> pen_after false p.
Proof. intros [_ H]. exact H. Qed.
Lemma gap_is p : gap p = gap_text (p_white p). Proof. reflexivity. Qed.
Lemma white_app a b : white_text a -> white_text b -> white_text (a ++ b).
Proof. intros A B. apply Forall_app. auto. Qed.
Lemma white_gap b : white_text (gap_text b).
Proof. destruct b; repeat constructor. Qed.
Lemma white_spaces n : white_text (repeat 0x20 n).
Proof. apply Forall_forall. intros x H. apply repeat_spec in H. auto. Qed.
Lemma white_break g : white_text (break_chars g).
Proof. unfold break_chars. destruct (g_break g); repeat constructor; right; reflexivity. Qed.

Lemma indicator_is s need w i p : chars (write_indicator s need w i p) = chars p ++ (if need then gap_text (p_white p) else []) ++ s /\
  p_column (write_indicator s need w i p) = (p_column p + Z.of_nat (length (if need then gap_text (p_white p) else [])) + Z.of_nat (length s))%Z /\
  p_white (write_indicator s need w i p) = w /\ p_indention (write_indicator s need w i p) = p_indention p && i.
Proof.
  destruct (indicator_text s need w i p) as (sp & E1 & Es & E2 & E3 & E4).
  assert (E : sp = if need then gap_text (p_white p) else []) by (rewrite Es; destruct need, (p_white p); reflexivity). rewrite <- E. auto.
Qed.
Lemma indent_any g i p : exists ws, chars (write_indent g i p) = chars p ++ ws /\ white_text ws /\ p_white (write_indent g i p) = true.
Proof.
  unfold write_indent. destruct (negb (p_indention p) || _ || _).
  - eexists. split; [rewrite chars_white, chars_puts, chars_break, <- app_assoc; reflexivity|]. split; [|reflexivity]. apply white_app; [apply white_break|apply white_spaces].
  - eexists. split; [rewrite chars_white, chars_puts; reflexivity|]. split; [|reflexivity]. apply white_spaces.
Qed.
Lemma after_indent g nl p j : (0 <= j)%Z -> pen_after nl p ->
  chars (write_indent g j p) = chars p ++ brk g nl ++ spaces j /\ p_column (write_indent g j p) = j /\ p_white (write_indent g j p) = true /\ p_indention (write_indent g j p) = true.
Proof.
  intros J P. destruct nl; cbn [pen_after brk] in *.
  - destruct P as (P1 & P2 & P3). unfold write_indent. replace (j >=? 0)%Z with true by lia. rewrite P1, P2, P3. cbn [negb orb]. rewrite andb_false_r, orb_false_r. replace (0 >? j)%Z with false by lia.
    rewrite chars_white, chars_puts. cbn [set_white p_column p_white p_indention]. rewrite (proj1 (pputs_state _ _)), repeat_length, P2, Z.sub_0_r. repeat split. lia.
  - exact (indent_break g j p J (or_introl P)).
Qed.
(* at a column in the indentation *)
Lemma compact_indent g p j : (0 <= j)%Z -> p_indention p = true -> (p_column p <= j)%Z -> (p_white p = false -> (p_column p < j)%Z) ->
  chars (write_indent g j p) = chars p ++ spaces (j - p_column p) /\ p_column (write_indent g j p) = j /\ p_white (write_indent g j p) = true /\ p_indention (write_indent g j p) = true.
Proof.
  intros J I C W. unfold write_indent. replace (j >=? 0)%Z with true by lia. rewrite I. replace (p_column p >? j)%Z with false by lia. cbn [negb orb].
  replace ((p_column p =? j)%Z && negb (p_white p)) with false by (destruct (p_white p); [rewrite andb_false_r; reflexivity|specialize (W eq_refl); replace (p_column p =? j)%Z with false by lia; reflexivity]).
  rewrite chars_white, chars_puts. cbn [set_white p_column p_white p_indention]. rewrite (proj1 (pputs_state _ _)), repeat_length. repeat split. lia.
Qed.

(* ---- double-quoted ---- *)
Lemma ascii_flat l : Forall (fun c => 0x20 <= c < 0x7F) l -> flat l.
Proof.
  intros F. unfold flat. induction F as [|c l H _ IH]; [reflexivity|]. cbn [existsb]. rewrite IH, orb_false_r. unfold is_break. lia.
Qed.
Lemma flat_app a b : flat a -> flat b -> flat (a ++ b).
Proof. unfold flat. intros A B. rewrite existsb_app, A, B. reflexivity. Qed.
Lemma hex_ascii d : d < 16 -> 0x20 <= hex_digit d < 0x7F.
Proof. intros H. unfold hex_digit. destruct (d <? 10) eqn:E; lia. Qed.
Lemma hexes_ascii k v : Forall (fun c => 0x20 <= c < 0x7F) (hex_digits k v) /\ length (hex_digits k v) = k.
Proof.
  induction k as [|k [IH1 IH2]]; [repeat constructor|]. cbn [hex_digits length]. split; [|lia]. constructor; [|exact IH1].
  apply hex_ascii. change 0xF with (N.ones 4). rewrite N.land_ones. apply N.mod_lt. discriminate.
Qed.
Lemma escape_size c : Forall (fun c => 0x20 <= c < 0x7F) (escape_code c) /\ (S (length (escape_code c)) <= 4 * length (utf8_enc c))%nat.
Proof.
  assert (U1 : (1 <= length (utf8_enc c))%nat) by (unfold utf8_enc; repeat match goal with |- context [if ?b then _ else _] => destruct b end; cbn; lia).
  assert (U2 : 0x80 <= c -> (2 <= length (utf8_enc c))%nat) by (intros H; unfold utf8_enc; replace (c <? 0x80) with false by lia; repeat match goal with |- context [if ?b then _ else _] => destruct b end; cbn; lia).
  assert (U3 : 0x10000 <= c -> (4 <= length (utf8_enc c))%nat) by (intros H; unfold utf8_enc; replace (c <? 0x80) with false by lia; replace (c <? 0x800) with false by lia; replace (c <? 0x10000) with false by lia; cbn; lia).
  destruct (hexes_ascii 2 c) as [A2 L2], (hexes_ascii 4 c) as [A4 L4], (hexes_ascii 8 c) as [A8 L8]. unfold escape_code.
  repeat match goal with |- context [if c =? ?k then _ else _] => destruct (c =? k); [split; [repeat constructor; lia|cbn [length]; lia]|] end.
  destruct (c <=? 0xFF) eqn:E1; [split; [constructor; [lia|exact A2]|cbn [length]; rewrite L2; lia]|].
  destruct (c <=? 0xFFFF) eqn:E2; [split; [constructor; [lia|exact A4]|cbn [length]; rewrite L4; specialize (U2 ltac:(lia)); lia]|].
  split; [constructor; [lia|exact A8]|cbn [length]; rewrite L8; specialize (U3 ltac:(lia)); lia].
Qed.
Lemma double_flat g i s : forall first sp p, exists w, chars (double_loop g i false first sp s p) = chars p ++ w /\ flat w /\ (length w <= 4 * length (utf8 s))%nat.
Proof.
  induction s as [|c s IH]; intros first sp p; cbn [double_loop].
  - exists []. rewrite app_nil_r. repeat split. cbn. lia.
  - change (utf8 (c :: s)) with (utf8_enc c ++ utf8 s). rewrite app_length. destruct (escape_size c) as [Ea Es]. cbn [andb].
    destruct (must_escape g c) eqn:M.
    + destruct (IH false false (pputs (0x5C :: escape_code c) p)) as (w & E & F & L). exists ((0x5C :: escape_code c) ++ w). rewrite E, chars_puts, <- app_assoc. split; [reflexivity|].
      split; [apply flat_app; [apply ascii_flat; constructor; [lia|exact Ea]|exact F]|]. rewrite app_length. cbn [length]. lia.
    + assert (Bc : is_break c = false) by (unfold must_escape in M; apply orb_false_iff in M as [M _]; apply orb_false_iff in M as [M _]; apply orb_false_iff in M as [_ M]; exact M).
      assert (K : forall sp', exists w, chars (double_loop g i false false sp' s (pput c p)) = chars p ++ w /\ flat w /\ (length w <= 4 * (length (utf8_enc c) + length (utf8 s)))%nat).
      { intros sp'. destruct (IH false sp' (pput c p)) as (w & E & F & L). exists (c :: w). rewrite E, chars_put, <- app_assoc. split; [reflexivity|].
        split; [unfold flat; cbn [existsb]; rewrite Bc; exact F|]. cbn [length]. lia. }
      destruct (is_space c); apply K.
Qed.
Lemma double_written g i s allow p : (1 <= i)%Z -> Forall scalar_value s ->
  exists w, chars (write_double g i s allow p) = chars p ++ gap_text (p_white p) ++ 0x22 :: w ++ [0x22] /\ dq (break_chars g) false s w /\ tight (write_double g i s allow p) /\
    (allow = false -> flat w /\ (length w <= 4 * length (utf8 s))%nat).
Proof.
  intros Hi F. unfold write_double. destruct (indicator_is [0x22] true false false p) as (E1 & E2 & E3 & E4).
  destruct (double_text g i allow Hi s true false (write_indicator [0x22] true false false p) F) as (w & E & D).
  { left. rewrite E4, andb_false_r. reflexivity. }
  exists w. rewrite chars_white. destruct (indicator_is [0x22] false false false (double_loop g i allow true false s (write_indicator [0x22] true false false p))) as (E5 & _).
  split; [rewrite E5, E, E1; cbn [app]; rewrite <- !app_assoc; reflexivity|]. split; [exact D|]. split; [split; reflexivity|].
  intros ->. destruct (double_flat g i s true false (write_indicator [0x22] true false false p)) as (w' & E' & Fl & L). rewrite E in E'. apply app_inv_head in E'. subst w'. auto.
Qed.

(* ---- single-quoted ---- *)
Lemma utf8_longer s : (length s <= length (utf8 s))%nat.
Proof.
  induction s as [|c s IH]; [cbn; lia|]. change (utf8 (c :: s)) with (utf8_enc c ++ utf8 s). rewrite app_length. cbn [length].
  assert (U1 : (1 <= length (utf8_enc c))%nat) by (unfold utf8_enc; repeat match goal with |- context [if ?b then _ else _] => destruct b end; cbn; lia). lia.
Qed.
Lemma single_flat g i s : flat s -> forall first sp p, exists w q, single_loop g i false first sp false s p = (q, false) /\ chars q = chars p ++ w /\ flat w /\ (length w <= 2 * length s)%nat.
Proof.
  unfold flat. induction s as [|c s IH]; intros Fs first sp p; cbn [single_loop].
  - exists [], p. rewrite app_nil_r. repeat split. cbn. lia.
  - cbn [existsb] in Fs. apply orb_false_iff in Fs as [Bc Fs]. cbn [andb]. destruct (is_space c).
    + destruct (IH Fs false true (pput c p)) as (w & q & E & Eq & F & L). exists (c :: w), q. rewrite E, Eq, chars_put, <- app_assoc. repeat split; [|cbn [length]; lia]. cbn [existsb]. rewrite Bc. exact F.
    + rewrite Bc. match goal with |- context [single_loop g i false false false false s ?q0] => destruct (IH Fs false false q0) as (w & q & E & Eq & F & L) end.
      destruct (c =? 0x27) eqn:Q.
      * exists (0x27 :: c :: w), q. rewrite E, Eq, chars_indention, !chars_put, <- !app_assoc. repeat split; [|cbn [length]; lia]. cbn [existsb]. rewrite Bc. exact F.
      * exists (c :: w), q. rewrite E, Eq, chars_indention, !chars_put, <- !app_assoc. repeat split; [|cbn [length]; lia]. cbn [existsb]. rewrite Bc. exact F.
Qed.
Lemma single_written g i s allow p d : (1 <= i)%Z -> a_single (analyze_scalar (g_unicode g) s d) = true ->
  exists w, chars (write_single g i s allow p) = chars p ++ gap_text (p_white p) ++ 0x27 :: w ++ [0x27] /\ sq g InWord s w /\ tight (write_single g i s allow p) /\
    (allow = false -> flat s -> flat w /\ (length w <= 4 * length (utf8 s))%nat).
Proof.
  intros Hi A. destruct (single_ok _ _ _ A) as [T F]. unfold write_single. destruct (indicator_is [0x27] true false false p) as (E1 & E2 & E3 & E4).
  set (p1 := write_indicator [0x27] true false false p) in *.
  destruct (single_text g i allow (g_unicode g) Hi s true false false p1 F T eq_refl) as (w & E & D).
  { rewrite E4, andb_false_r. reflexivity. }
  exists w. destruct (single_loop g i allow true false false s p1) as [q b] eqn:Q. cbn [close_breaks] in E.
  destruct (indicator_is [0x27] false false false (if b then write_indent g i q else q)) as (E5 & _). rewrite chars_white.
  split; [rewrite E5, E, E1; cbn [app]; rewrite <- !app_assoc; reflexivity|]. split; [exact D|]. split; [split; reflexivity|].
  intros -> Fs. destruct (single_flat g i s Fs true false p1) as (w' & q' & Q' & E' & Fl & L). rewrite Q in Q'. injection Q' as <- ->. rewrite E in E'. apply app_inv_head in E'. subst w'.
  split; [exact Fl|]. pose proof (utf8_longer s). lia.
Qed.

(* ---- plain ---- *)
Lemma plain_flat g i s : flat s -> forall sp p, chars (plain_loop g i false sp false s p) = chars p ++ s.
Proof.
  unfold flat. induction s as [|c s IH]; intros Fs sp p; cbn [plain_loop]; [rewrite app_nil_r; reflexivity|].
  cbn [existsb] in Fs. apply orb_false_iff in Fs as [Bc Fs]. cbn [andb]. rewrite Bc. destruct (is_space c); rewrite IH by exact Fs; rewrite ?chars_indention, chars_put, <- app_assoc; reflexivity.
Qed.
Lemma plain_written g i fl s allow p flow d : (1 <= i)%Z -> s <> [] -> plain_allowed flow (analyze_scalar (g_unicode g) s d) = true ->
  exists w, chars (write_plain g i fl s allow p) = chars p ++ gap_text (p_white p) ++ w /\ pq g (Z.to_nat i) InWord s w /\ tight (write_plain g i fl s allow p) /\
    (allow = false -> flat w /\ (length w <= 4 * length (utf8 s))%nat).
Proof.
  intros Hi Ns A. destruct (plain_facts _ _ _ _ Ns A) as (_ & _ & Bk & S1 & S2 & _).
  destruct (write_plain_text g i fl s allow p Hi Ns S1 S2 Bk) as (w & E & D). exists w. split; [exact E|]. split; [exact D|]. split; [split; reflexivity|].
  intros ->. unfold write_plain in E. rewrite chars_white, plain_flat in E by exact Bk. unfold space_if in E.
  replace (nlen s =? 0) with false in E by (symmetry; apply N.eqb_neq; unfold nlen; destruct s; [contradiction|]; cbn [length]; lia). cbn [negb orb] in E. rewrite andb_true_r in E.
  assert (w = s) as ->. { destruct (p_white p); cbn [negb app] in E; [|rewrite chars_put in E; cbn [app] in E; rewrite <- app_assoc in E]; apply app_inv_head in E; cbn [app] in E; congruence. }
  split; [exact Bk|]. pose proof (utf8_longer s). lia.
Qed.
Lemma plain_begins_ok flow u s d : s <> [] -> plain_allowed flow (analyze_scalar u s d) = true -> plain_lead flow s.
Proof.
  intros Ns A. destruct (plain_facts _ _ _ _ Ns A) as (_ & Sp & Bk & S1 & _). unfold analyze_scalar in A. destruct s as [|c r]; [contradiction|]. cbn [next nth existsb] in *.
  apply orb_false_iff in Sp as [Sc _], Bk as [Bc _]. assert (Z : is_blankz c = false) by (apply (printable_plain u); assumption).
  assert (F : let '(bi, fi) := indicators_at true true (is_blankz (next r)) c in if flow then fi = false else bi = false).
  { unfold scalar_flags in A. cbn [flag_loop] in A. destruct (indicators_at true true (is_blankz (next r)) c) as [bi fi].
    match type of A with context [flag_loop u false ?a ?b ?x r ?f0] => pose proof (indicator_flags u r false a b x f0) as K; cbv zeta in K; set (f' := flag_loop u false a b x r f0) in * end.
    destruct K as [K1 K2]. cbn [f_block_ind f_flow_ind] in K1, K2. unfold plain_allowed in A. destruct flow; cbn [a_flow_plain a_block_plain] in A; apply andb_true_iff in A as [_ A]; apply negb_true_iff in A.
    - destruct (K2 A) as [K _]. apply orb_false_iff in K as [_ K]. exact K.
    - destruct (K1 A) as [K _]. apply orb_false_iff in K as [_ K]. exact K. }
  unfold indicators_at in F.
  assert (Fi : first_indicator c = false) by (destruct (first_indicator c); [destruct flow; discriminate F|reflexivity]).
  assert (N : forall k, In k [0x23; 0x2C; 0x5B; 0x5D; 0x7B; 0x7D; 0x26; 0x2A; 0x21; 0x7C; 0x3E; 0x27; 0x22; 0x25; 0x40; 0x60] -> (c =? k) = false) by (intros k; apply existsb_false; exact Fi).
  split.
  - unfold ScanStep.starts. cbn [nth]. unfold is_blankz, is_breakz in Z. apply orb_false_iff in Z as [Z1 Z2]. apply orb_false_iff in Z2 as [Z2 _]. split; [exact Z1|]. split; [exact Z2|].
    split; [intros ->; discriminate Fi|]. intros ->. unfold special in Sc. apply orb_false_iff in Sc as [Sc _]. discriminate Sc.
  - unfold ScanStep.plain_begins. cbn [next nth tl]. fold (next r).
    destruct (N.eqb_spec c 0x2D) as [->|N1].
    { right. left. split; [reflexivity|]. destruct flow; cbn in F; repeat (apply orb_false_iff in F as [F ?]); assumption. }
    destruct (N.eqb_spec c 0x3F) as [->|N2].
    { right. right. destruct flow; cbn in F; [discriminate|]. repeat (apply orb_false_iff in F as [F ?]). auto. }
    destruct (N.eqb_spec c 0x3A) as [->|N3].
    { right. right. destruct flow; cbn in F; [discriminate|]. repeat (apply orb_false_iff in F as [F ?]). auto. }
    left. unfold ScannerModel.plain_first. rewrite Z. cbn [existsb]. replace (c =? 0x2D) with false by lia. replace (c =? 0x3F) with false by lia. replace (c =? 0x3A) with false by lia.
    rewrite !N by (cbn; tauto). reflexivity.
Qed.

(* ---- literal and folded ---- *)
Lemma literal_end g i s : forall breaks p, s <> [] -> p_white p = true -> pen_after (is_break (last s 0)) (literal_loop g i breaks s p).
Proof.
  induction s as [|c s IH]; intros breaks p N W; [contradiction|]. cbn [literal_loop].
  set (q := if is_break c then set_indention (pwrite_break g c p) true else set_indention (pput c (if breaks then write_indent g i p else p)) false).
  assert (Q : literal_loop g i (is_break c) s q = (if is_break c then literal_loop g i true s (set_indention (pwrite_break g c p) true) else literal_loop g i false s (set_indention (pput c (if breaks then write_indent g i p else p)) false))) by (unfold q; destruct (is_break c); reflexivity).
  cbv zeta. rewrite <- Q.
  assert (Wq : p_white q = true).
  { unfold q. destruct (is_break c); [|destruct breaks; [reflexivity|exact W]]. cbn. unfold pwrite_break. destruct (c =? 0xA); exact W. }
  destruct s as [|c' s'].
  - cbn [literal_loop last]. unfold q. destruct (is_break c); [|reflexivity]. split; [reflexivity|]. split; [apply wbreak_state|]. unfold pwrite_break. destruct (c =? 0xA); exact W.
  - apply IH; [discriminate|exact Wq].
Qed.
Lemma folded_end g i s : forall breaks leading p, s <> [] -> p_white p = true -> pen_after (is_break (last s 0)) (folded_loop g i breaks leading s p).
Proof.
  induction s as [|c s IH]; intros breaks leading p N W; [contradiction|]. cbn [folded_loop]. cbv zeta.
  assert (Wb : forall b : bool, p_white (set_indention (pwrite_break g c (if b then put_break g p else p)) true) = true) by (intros b; cbn; unfold pwrite_break; destruct (c =? 0xA), b; exact W).
  destruct (is_break c) eqn:Bc.
  - destruct s as [|c' s']; [|apply IH; [discriminate|apply Wb]]. cbn [folded_loop last]. rewrite Bc. split; [reflexivity|]. split; [apply wbreak_state|apply Wb].
  - match goal with |- pen_after _ (folded_loop g i false _ s (set_indention ?q false)) => assert (Wq : p_white q = true); [|destruct s as [|c' s']; [cbn [folded_loop last]; rewrite Bc; reflexivity|apply IH; [discriminate|exact Wq]]] end.
    destruct breaks; cbn [negb andb]; [reflexivity|]. match goal with |- context [if ?b then write_indent g i p else _] => destruct b end; [reflexivity|exact W].
Qed.
Lemma block_written g i s p (literal : bool) d : (1 <= i)%Z -> a_block (analyze_scalar (g_unicode g) s d) = true -> (literal = false -> indented_lines_fit i (g_width g) s) ->
  exists w, chars (if literal then write_literal g i s p else write_folded g i s p) =
    chars p ++ gap_text (p_white p) ++ (if literal then 0x7C else 0x3E) :: digit_text (digit_of g s) ++ chomp_text (chomp_of (tail_breaks 1 s)) ++ break_chars g ++ w /\
    bt g literal (Z.to_nat i) (AtBreak Kept) s w /\ s <> [] /\ pen_after (is_break (last s 0)) (if literal then write_literal g i s p else write_folded g i s p).
Proof.
  intros Hi A Na. destruct (block_facts _ _ _ A) as (Ns & F & Sp). destruct (block_text g i s p literal Hi Ns F Sp Na) as (w & E & D).
  exists w. split; [exact E|]. split; [exact D|]. split; [exact Ns|]. destruct literal; [apply literal_end|apply folded_end]; auto.
Qed.
Lemma header_ok g i ind s d : (2 <= g_indent g <= 9)%Z -> (-1 <= ind)%Z -> i = content_indent g ind -> a_block (analyze_scalar (g_unicode g) s d) = true ->
  digit_ok (digit_of g s) /\ header_fits ind (Z.to_nat i) s (digit_of g s).
Proof.
  intros Gi Hi -> A. destruct (block_facts _ _ _ A) as (Ns & F & Sp). unfold digit_of, content_indent. destruct (is_space (next s) || is_break (next s)) eqn:Hs; cbn [digit_ok header_fits].
  - split; [lia|]. destruct (Z.ltb_spec ind 0), (Z.leb_spec 0 ind); lia.
  - split; [exact I|]. apply orb_false_iff in Hs as [Hs1 Hs2]. split; [destruct (Z.ltb_spec ind 0); lia|]. split; [|exact Hs2].
    destruct s as [|x s]; [contradiction|]. cbn [existsb next nth] in *. apply orb_false_iff in F as [Fx _]. rewrite (special_blank _ _ Fx). exact Hs1.
Qed.
