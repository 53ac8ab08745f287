From Verif Require Import Base Utf8Spec ReaderModel Utf8Lemmas CharSpec CharModel.

(* A text cut at character [k]: the bytes before it, and it. *)
Lemma byte_at_shift pre bs k : byte_at (pre ++ bs) (length pre + k) = byte_at bs k.
Proof. unfold byte_at. rewrite nth_error_app2 by lia. f_equal. lia. Qed.

Ltac dec c :=
  repeat (match goal with
  | |- context [?a =? ?b] => first [ replace (a =? b) with true by lia | replace (a =? b) with false by lia | destruct (N.eqb_spec a b); try lia ]
  | |- context [?a <=? ?b] => first [ replace (a <=? b) with true by lia | replace (a <=? b) with false by lia | destruct (N.leb_spec a b); try lia ]
  | |- context [?a <? ?b] => first [ replace (a <? b) with true by lia | replace (a <? b) with false by lia | destruct (N.ltb_spec a b); try lia ]
  end; cbn [andb orb negb oand oor onot option_map]).

Ltac start c :=
  unfold utf8_enc;
  destruct (N.ltb_spec c 0x80); [|destruct (N.ltb_spec c 0x800); [|destruct (N.ltb_spec c 0x10000)]];
  cbn [app];
  unfold IS_ALPHA_AT, IS_DIGIT_AT, AS_DIGIT_AT, IS_HEX_AT, AS_HEX_AT, IS_ASCII_AT, IS_PRINTABLE_AT, IS_BLANKZ_AT, IS_SPACEZ_AT, IS_BREAKZ_AT, IS_BREAK_AT, IS_BLANK_AT, IS_TAB_AT,
    IS_SPACE_AT, IS_BOM_AT, IS_Z_AT, rng, CHECK_AT, test, GE, LE, byte_at;
  cbn [Nat.add nth_error option_map];
  unfold is_printable, is_alpha, is_hex, is_digit, is_upper, is_lower, is_blankz, is_spacez, is_breakz, is_break, is_blank, is_tab, is_space, is_bom, is_z, is_ascii, in_range.

Section OneChar.
  Variable c : N.
  Variable rest : list N.
  Hypothesis Hc : c < 0x200000.
  Let bs := utf8_enc c ++ rest.

  Lemma alpha_ok : IS_ALPHA_AT bs 0 = Some (is_alpha c).
  Proof using Hc. unfold bs. start c; dec c; reflexivity. Qed.
  Lemma digit_ok : IS_DIGIT_AT bs 0 = Some (is_digit c).
  Proof using Hc. unfold bs. start c; dec c; reflexivity. Qed.
  Lemma hex_ok : IS_HEX_AT bs 0 = Some (is_hex c).
  Proof using Hc. unfold bs. start c; dec c; reflexivity. Qed.
  Lemma as_digit_ok : is_digit c = true -> AS_DIGIT_AT bs 0 = Some (as_digit c).
  Proof using Hc. unfold bs, as_digit. start c; intros; try reflexivity; lia. Qed.
  Lemma as_hex_ok : is_hex c = true -> AS_HEX_AT bs 0 = Some (as_hex c).
  Proof using Hc. unfold bs, as_hex. start c; intros; try reflexivity; lia. Qed.
  Lemma ascii_ok : IS_ASCII_AT bs 0 = Some (is_ascii c).
  Proof using Hc. unfold bs. start c; dec c; reflexivity. Qed.
  Lemma printable_ok : IS_PRINTABLE_AT bs 0 = Some (is_printable c).
  Proof using Hc. unfold bs. start c; dec c; reflexivity. Qed.
  Lemma z_ok : IS_Z_AT bs 0 = Some (is_z c).
  Proof using Hc. unfold bs. start c; dec c; reflexivity. Qed.
  Lemma bom_ok : IS_BOM_AT bs 0 = Some (is_bom c).
  Proof using Hc. unfold bs. start c; dec c; reflexivity. Qed.
  Lemma space_ok : IS_SPACE_AT bs 0 = Some (is_space c).
  Proof using Hc. unfold bs. start c; dec c; reflexivity. Qed.
  Lemma tab_ok : IS_TAB_AT bs 0 = Some (is_tab c).
  Proof using Hc. unfold bs. start c; dec c; reflexivity. Qed.
  Lemma blank_ok : IS_BLANK_AT bs 0 = Some (is_blank c).
  Proof using Hc. unfold bs. start c; dec c; reflexivity. Qed.
  Lemma break_ok : IS_BREAK_AT bs 0 = Some (is_break c).
  Proof using Hc. unfold bs. start c; dec c; reflexivity. Qed.
  Lemma breakz_ok : IS_BREAKZ_AT bs 0 = Some (is_breakz c).
  Proof using Hc. unfold IS_BREAKZ_AT. rewrite break_ok, z_ok. unfold is_breakz. destruct (is_break c); reflexivity. Qed.
  Lemma spacez_ok : IS_SPACEZ_AT bs 0 = Some (is_spacez c).
  Proof using Hc. unfold IS_SPACEZ_AT. rewrite space_ok, breakz_ok. unfold is_spacez. destruct (is_space c); reflexivity. Qed.
  Lemma blankz_ok : IS_BLANKZ_AT bs 0 = Some (is_blankz c).
  Proof using Hc. unfold IS_BLANKZ_AT. rewrite blank_ok, breakz_ok. unfold is_blankz. destruct (is_blank c); reflexivity. Qed.
  Lemma check_ok o : o < 0x80 -> CHECK_AT bs o 0 = Some (c =? o).
  Proof using Hc. unfold bs. intros Ho. start c; f_equal; lia. Qed.

  Lemma width_ok : WIDTH_AT bs 0 = Some (nlen (utf8_enc c)).
  Proof using Hc.
    unfold bs, WIDTH_AT. destruct (utf8_enc_head_width c rest Hc) as (b & r & -> & E). cbn [byte_at nth_error option_map]. f_equal. exact E.
  Qed.
  Lemma move_ok : MOVE bs = Some rest.
  Proof using Hc.
    unfold MOVE. rewrite width_ok. unfold bs. rewrite nlen_app. destruct (N.ltb_spec (nlen (utf8_enc c) + nlen rest) (nlen (utf8_enc c))); [lia|].
    f_equal. apply skipn_nlen_app.
  Qed.
  Lemma copy_n_app l : copy_n (length l) (l ++ rest) = Some (l, rest).
  Proof using Type. clear bs. induction l as [|x l IH]; [reflexivity|]. cbn [length app copy_n]. rewrite IH. reflexivity. Qed.
  Lemma copy_ok : COPY bs = Some (utf8_enc c, rest).
  Proof using Hc.
    assert (E : COPY bs = copy_n (length (utf8_enc c)) bs).
    { unfold bs, COPY. destruct (utf8_enc_head_width c rest Hc) as (b & r & Eb & E). rewrite Eb. cbn [byte_at nth_error].
      unfold utf8_width in E. unfold nlen in E. pose proof (utf8_enc_len c). unfold nlen in *.
      repeat (match goal with |- context [if ?x then _ else _] => destruct x end); f_equal; lia. }
    rewrite E. apply copy_n_app.
  Qed.
End OneChar.

Lemma crlf_ok c d rest : c < 0x200000 -> d < 0x200000 ->
  IS_CRLF_AT (utf8_enc c ++ utf8_enc d ++ rest) 0 = Some ((c =? 0xD) && (d =? 0xA)).
Proof.
  intros Hc Hd. unfold IS_CRLF_AT. rewrite check_ok by (assumption || lia).
  destruct (N.eqb_spec c 0xD) as [->|]; [|reflexivity]. cbn [oand andb].
  change (utf8_enc 0xD) with [0xD]. cbn [app]. change (0 + 1)%nat with 1%nat.
  change (CHECK_AT (0xD :: utf8_enc d ++ rest) 0xA 1) with (CHECK_AT (utf8_enc d ++ rest) 0xA 0).
  apply check_ok; lia.
Qed.

Lemma all_tests_ok c rest : c < 0x200000 ->
  let bs := utf8_enc c ++ rest in
  IS_ALPHA_AT bs 0 = Some (is_alpha c) /\ IS_DIGIT_AT bs 0 = Some (is_digit c) /\ IS_HEX_AT bs 0 = Some (is_hex c) /\
  IS_ASCII_AT bs 0 = Some (is_ascii c) /\ IS_PRINTABLE_AT bs 0 = Some (is_printable c) /\ IS_Z_AT bs 0 = Some (is_z c) /\
  IS_BOM_AT bs 0 = Some (is_bom c) /\ IS_SPACE_AT bs 0 = Some (is_space c) /\ IS_TAB_AT bs 0 = Some (is_tab c) /\
  IS_BLANK_AT bs 0 = Some (is_blank c) /\ IS_BREAK_AT bs 0 = Some (is_break c) /\ IS_BREAKZ_AT bs 0 = Some (is_breakz c) /\
  IS_SPACEZ_AT bs 0 = Some (is_spacez c) /\ IS_BLANKZ_AT bs 0 = Some (is_blankz c) /\
  (forall o, o < 0x80 -> CHECK_AT bs o 0 = Some (c =? o)).
Proof.
  intros H bs. unfold bs.
  repeat split; auto using alpha_ok, digit_ok, hex_ok, ascii_ok, printable_ok, z_ok, bom_ok, space_ok, tab_ok, blank_ok, break_ok,
    breakz_ok, spacez_ok, blankz_ok, check_ok.
Qed.
Lemma at_position pre bs k o :
  CHECK_AT (pre ++ bs) o (length pre + k) = CHECK_AT bs o k /\
  IS_BLANKZ_AT (pre ++ bs) (length pre + k) = IS_BLANKZ_AT bs k /\
  IS_BREAKZ_AT (pre ++ bs) (length pre + k) = IS_BREAKZ_AT bs k /\
  IS_HEX_AT (pre ++ bs) (length pre + k) = IS_HEX_AT bs k /\
  IS_PRINTABLE_AT (pre ++ bs) (length pre + k) = IS_PRINTABLE_AT bs k.
Proof.
  repeat split; unfold IS_PRINTABLE_AT, IS_HEX_AT, IS_BLANKZ_AT, IS_SPACEZ_AT, IS_BREAKZ_AT, IS_BREAK_AT, IS_BLANK_AT, IS_TAB_AT,
    IS_SPACE_AT, IS_Z_AT, rng, CHECK_AT, test; rewrite <- ?Nat.add_assoc, ?byte_at_shift; reflexivity.
Qed.
Lemma digit_values c rest :
  (is_digit c = true -> AS_DIGIT_AT (utf8_enc c ++ rest) 0 = Some (as_digit c)) /\
  (is_hex c = true -> AS_HEX_AT (utf8_enc c ++ rest) 0 = Some (as_hex c)).
Proof.
  split; intros H.
  - apply as_digit_ok; [|assumption]. unfold is_digit, in_range in H. lia.
  - apply as_hex_ok; [|assumption]. unfold is_hex, is_digit, in_range in H. lia.
Qed.
