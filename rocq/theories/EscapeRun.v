(* Escape sequences: what the emitter writes is what the scanner reads. *)
From Verif Require Import Base ReaderModel Utf8Spec Utf8Lemmas CharSpec Types CursorModel ScanModel PlanFree FullRun QuotedRun WriterModel WriterSpec PenModel.

Lemma hex_digit_ok d : d < 16 -> is_hex (hex_digit d) = true /\ as_hex (hex_digit d) = d /\ is_ascii (hex_digit d) = true.
Proof.
  intros H. assert (E : forallb (fun d => is_hex (hex_digit d) && (as_hex (hex_digit d) =? d) && is_ascii (hex_digit d)) [0;1;2;3;4;5;6;7;8;9;10;11;12;13;14;15] = true) by reflexivity.
  rewrite forallb_forall in E. assert (I : In d [0;1;2;3;4;5;6;7;8;9;10;11;12;13;14;15]) by (cbn; lia).
  specialize (E d I). apply andb_true_iff in E as [E E3]. apply andb_true_iff in E as [E1 E2]. apply N.eqb_eq in E2. auto.
Qed.
Lemma digit_at v k : N.land (N.shiftr v (4 * N.of_nat k)) 0xF = (v / 16 ^ N.of_nat k) mod 16.
Proof. change 0xF with (N.ones 4). rewrite N.land_ones, N.shiftr_div_pow2, N.pow_mul_r. reflexivity. Qed.
Lemma hex_digits_len n v : length (hex_digits n v) = n.
Proof. induction n as [|n IH]; cbn; auto. Qed.
Lemma hex_digits_ascii n v : forallb is_ascii (hex_digits n v) = true.
Proof. induction n as [|n IH]; [reflexivity|]. cbn [hex_digits forallb]. rewrite digit_at, (proj2 (proj2 (hex_digit_ok _ (N.mod_lt _ 16 ltac:(discriminate))))). exact IH. Qed.
Lemma nth_app_here {A} (a : list A) x b d : nth (length a) (a ++ x :: b) d = x.
Proof. rewrite app_nth2, Nat.sub_diag by lia. reflexivity. Qed.
Lemma scan_hex_digits start v t m n : forall pre v0, forallb is_ascii pre = true ->
  scan_hex n (length pre) start v0 (fc (pre ++ hex_digits n v ++ t) m) = COk (v0 * 16 ^ N.of_nat n + v mod 16 ^ N.of_nat n) (fc (pre ++ hex_digits n v ++ t) m).
Proof.
  induction n as [|n IH]; intros pre v0 A.
  - cbn [scan_hex]. unfold ret. f_equal. change (16 ^ N.of_nat 0) with 1. rewrite N.mod_1_r. lia.
  - cbn [scan_hex hex_digits]. rewrite digit_at. set (d := (v / 16 ^ N.of_nat n) mod 16).
    assert (D : d < 16) by (apply N.mod_lt; discriminate). destruct (hex_digit_ok d D) as (D1 & D2 & D3).
    rewrite r_peek; [|rewrite !app_length; cbn; lia|rewrite firstn_app, Nat.sub_diag, firstn_all; cbn [firstn]; rewrite app_nil_r; exact A].
    change ((hex_digit d :: hex_digits n v) ++ t) with (hex_digit d :: hex_digits n v ++ t). rewrite nth_app_here, D1, D2.
    specialize (IH (pre ++ [hex_digit d]) (v0 * 16 + d)). rewrite app_length in IH. cbn [length] in IH. rewrite Nat.add_1_r in IH. rewrite <- app_assoc in IH. cbn [app] in IH.
    rewrite IH; [|rewrite forallb_app, A; cbn; rewrite D3; reflexivity]. f_equal.
    rewrite Nat2N.inj_succ, N.pow_succ_r', (N.mul_comm 16), N.mod_mul_r by (try discriminate; apply N.pow_nonzero; discriminate). fold d. lia.
Qed.
Lemma skip_n_run n t : forall pre m, length pre = n -> skip_n n (fc (pre ++ t) m) = COk tt (fc t (next_column (N.of_nat n) m)).
Proof.
  induction n as [|n IH]; intros pre m H.
  - destruct pre; [|discriminate]. cbn [app skip_n N.of_nat]. unfold ret, next_column. rewrite !N.add_0_r. destruct m; reflexivity.
  - destruct pre as [|x pre]; [discriminate|]. cbn [app skip_n]. rewrite r_skip, IH by (cbn in H; lia). unfold next_column. cbn [m_index m_line m_column].
    assert (X : forall a, a + 1 + N.of_nat n = a + N.of_nat (S n)) by (intros; lia). rewrite !X. reflexivity.
Qed.
Lemma code_bytes_enc v : code_bytes v = utf8_enc v.
Proof.
  unfold code_bytes, utf8_enc. rewrite !land_3f, !shr6, !shr12, !shr18.
  replace (v <=? 0x7F) with (v <? 0x80) by lia. replace (v <=? 0x7FF) with (v <? 0x800) by lia. replace (v <=? 0xFFFF) with (v <? 0x10000) by lia. reflexivity.
Qed.
Lemma enc_room c : (length (utf8_enc c) <= room)%nat.
Proof. pose proof (utf8_enc_len c) as H. unfold nlen in H. unfold room. lia. Qed.

Lemma scan_code start s k x v t m : escape x = Some (inr k) -> is_ascii x = true -> scalar_value v -> v < 16 ^ N.of_nat k ->
  scan_escape start s (fc (0x5C :: x :: hex_digits k v ++ t) m) = COk (s ++ utf8_enc v) (fc t (next_column (N.of_nat k) (next_column 1 (next_column 1 m)))).
Proof.
  intros E A S L. unfold scan_escape. rewrite r_peek; [|cbn; lia|reflexivity]. cbn [nth]. rewrite E.
  rewrite r_skip, r_skip, r_cache. pose proof (scan_hex_digits start v t (next_column 1 (next_column 1 m)) k [] 0 eq_refl) as H. cbn [length app] in H.
  unfold bind at 1. rewrite H. rewrite N.mod_small, N.mul_0_l, N.add_0_l by exact L.
  replace ((0xD800 <=? v) && (v <=? 0xDFFF)) with false by (unfold scalar_value in S; lia). replace (0x10FFFF <? v) with false by (unfold scalar_value in S; lia). cbn [orb].
  rewrite code_bytes_enc, r_put by apply enc_room. unfold bind. rewrite skip_n_run by apply hex_digits_len. reflexivity.
Qed.
Lemma scan_simple start s x bs t m : escape x = Some (inl bs) -> (length bs <= room)%nat ->
  scan_escape start s (fc (0x5C :: x :: t) m) = COk (s ++ bs) (fc t (next_column 1 (next_column 1 m))).
Proof. intros E R. unfold scan_escape. rewrite r_peek; [|cbn; lia|reflexivity]. cbn [nth]. rewrite E. rewrite r_put by exact R. run. reflexivity. Qed.

(* the escape the emitter writes for a character *)
Definition escape_read (start : mark) (s : list N) (c : N) (t : list N) (m : mark) (code : list N) : Prop :=
  exists x r m', code = x :: r /\ is_break x = false /\ scan_escape start s (fc (0x5C :: code ++ t) m) = COk (s ++ utf8_enc c) (fc t m') /\ m_column m <= m_column m'.
Lemma simple_read start s c t m x : escape x = Some (inl (utf8_enc c)) -> is_break x = false -> escape_read start s c t m [x].
Proof.
  intros E B. exists x, [], (next_column 1 (next_column 1 m)). split; [reflexivity|]. split; [exact B|]. split; [|cbn; lia].
  cbn [app]. apply scan_simple; [exact E|apply enc_room].
Qed.
Lemma code_read start s c t m x k : escape x = Some (inr k) -> is_ascii x = true -> is_break x = false -> scalar_value c -> c < 16 ^ N.of_nat k ->
  escape_read start s c t m (x :: hex_digits k c).
Proof.
  intros E A B S L. exists x, (hex_digits k c), (next_column (N.of_nat k) (next_column 1 (next_column 1 m))). split; [reflexivity|]. split; [exact B|]. split; [|cbn; lia].
  cbn [app]. apply scan_code; assumption.
Qed.
Lemma escape_ok start s c t m : scalar_value c -> escape_read start s c t m (escape_code c).
Proof.
  intros S. unfold escape_code.
  repeat match goal with
  | |- escape_read _ _ _ _ _ (if c =? ?k then _ else _) => destruct (N.eqb_spec c k) as [->|]; [apply simple_read; reflexivity|]
  end.
  destruct (N.leb_spec c 0xFF); [|destruct (N.leb_spec c 0xFFFF)]; (apply code_read; [reflexivity|reflexivity|reflexivity|exact S|]).
  - cbn. lia.
  - cbn. lia.
  - unfold scalar_value in S. cbn. lia.
Qed.

(* an escape inside a double-quoted scalar *)
Lemma a_escaped start L acc bs x t t1 m m1 v t' : is_break x = false -> (length t1 < 2 + length t)%nat ->
  scan_escape start acc (fc (0x5C :: x :: t) m) = COk (acc ++ bs) (fc t1 m1) ->
  after false start L (acc ++ bs) t1 m1 v t' -> after false start L acc (0x5C :: x :: t) m v t'.
Proof.
  intros X H E. unfold after, scan_quoted_word. apply ends_loop; [|cbn [length]; lia].
  run. cbn [nth]. change (is_blankz 0x5C) with false. run. cbn [nth]. change (eqc 0x22 0x5C) with false. run. cbn [negb]. run. cbn [nth]. change (eqc 0x5C 0x5C) with true. cbv iota.
  rewrite (r_check 1); [|cbn; lia|reflexivity]. cbn [nth]. rewrite X. cbv iota. run. cbn [nth]. change (eqc 0x5C 0x5C) with true. cbv iota.
  unfold bind at 1. rewrite E. run. reflexivity.
Qed.
Lemma a_escape start L acc c t m v t' : scalar_value c -> (forall m', m_column m <= m_column m' -> after false start L (acc ++ utf8_enc c) t m' v t') ->
  after false start L acc (0x5C :: escape_code c ++ t) m v t'.
Proof.
  intros S K. destruct (escape_ok start acc c t m S) as (x & r & m' & E & B & H & C). rewrite E in *. cbn [app] in *.
  apply (a_escaped start L acc (utf8_enc c) x (r ++ t) t m m' v t' B); [rewrite app_length; lia|exact H|exact (K m' C)].
Qed.
Lemma a_escaped_space start L acc t m v t' : (forall m', m_column m <= m_column m' -> after false start L (acc ++ [0x20]) t m' v t') ->
  after false start L acc (0x5C :: 0x20 :: t) m v t'.
Proof.
  intros K. apply (a_escaped start L acc [0x20] 0x20 t t m (next_column 1 (next_column 1 m))); [reflexivity|lia| |apply K; cbn; lia].
  apply scan_simple; [reflexivity|unfold room; cbn; lia].
Qed.
