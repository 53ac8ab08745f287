(* The UTF-16 branch of the reader against the RFC 2781 specification. *)
From Verif Require Import Base Utf8Spec ReaderModel Utf8Lemmas.

Lemma land_fc00 v : v < 65536 -> N.land v 0xFC00 = (v / 1024) * 1024.
Proof.
  intros H.
  change 0xFC00 with (N.ldiff (N.ones 16) (N.ones 10)).
  replace (N.land v (N.ldiff (N.ones 16) (N.ones 10)))
     with (N.ldiff (N.land v (N.ones 16)) (N.ones 10)).
  - rewrite N.land_ones. rewrite N.mod_small by exact H.
    rewrite N.ldiff_ones_r, shr10, shl10. reflexivity.
  - apply N.bits_inj. intros n. rewrite N.land_spec, !N.ldiff_spec, N.land_spec, andb_assoc. reflexivity.
Qed.

Lemma unit_value_bytes be u : match unit_bytes be u with
   [b0; b1] => unit_value be b0 b1 = u | _ => False end.
Proof. destruct be; cbn; unfold unit_value; rewrite shl8; lia. Qed.

Lemma unit_value_lt be b0 b1 : b0 < 256 -> b1 < 256 -> unit_value be b0 b1 < 65536.
Proof. intros. unfold unit_value; destruct be; rewrite shl8; lia. Qed.
Lemma unit_bytes_value be b0 b1 : b0 < 256 -> b1 < 256 -> unit_bytes be (unit_value be b0 b1) = [b0; b1].
Proof.
  intros. unfold unit_value, unit_bytes; destruct be; rewrite shl8;
  repeat (apply f_equal2; [lia|]); reflexivity.
Qed.

Lemma utf16_enc_len be c : nlen (utf16_enc be c) = if c <? 0x10000 then 2 else 4.
Proof.
  unfold utf16_enc, utf16_units. destruct (c <? 0x10000); cbn [flat_map];
  unfold unit_bytes; destruct be; reflexivity.
Qed.
Lemma utf16_enc_nonempty be c : utf16_enc be c <> [].
Proof.
  unfold utf16_enc, utf16_units. destruct (c <? 0x10000); cbn [flat_map];
  unfold unit_bytes; destruct be; discriminate.
Qed.

Lemma decode_utf16_enc be eof c rest : scalar_value c ->
  decode_utf16 be eof (utf16_enc be c ++ rest) = Some (DChar c (nlen (utf16_enc be c))).
Proof.
  intros Hs. rewrite utf16_enc_len.
  unfold utf16_enc, utf16_units.
  destruct (N.ltb_spec c 0x10000) as [Hc|Hc]; cbn [flat_map]; rewrite ?app_nil_r.
  - pose proof (unit_value_bytes be c) as E.
    destruct (unit_bytes be c) as [|b0 [|b1 [|? ?]]]; try contradiction.
    cbn [app]. unfold decode_utf16. rewrite E.
    rewrite land_fc00 by lia.
    unfold scalar_value in Hs.
    destruct (N.eqb_spec (c / 1024 * 1024) 0xDC00); [lia|].
    destruct (N.eqb_spec (c / 1024 * 1024) 0xD800); [lia|]. reflexivity.
  - pose proof (unit_value_bytes be (0xD800 + (c - 0x10000) / 1024)) as E1.
    pose proof (unit_value_bytes be (0xDC00 + (c - 0x10000) mod 1024)) as E2.
    destruct (unit_bytes be (0xD800 + (c - 0x10000) / 1024)) as [|b0 [|b1 [|? ?]]]; try contradiction.
    destruct (unit_bytes be (0xDC00 + (c - 0x10000) mod 1024)) as [|b2 [|b3 [|? ?]]]; try contradiction.
    cbn [app]. unfold decode_utf16. rewrite E1, E2.
    unfold scalar_value in Hs.
    rewrite !land_fc00 by lia. rewrite !land_3ff, shl10.
    set (h := (c - 0x10000) / 1024). set (l := (c - 0x10000) mod 1024).
    assert (Hh : h < 1024) by (subst h; lia).
    assert (Hl : l < 1024) by (subst l; lia).
    assert (Hx : c = 0x10000 + h * 1024 + l) by (subst h l; lia).
    clearbody h l.
    replace ((0xD800 + h) / 1024 * 1024) with 0xD800 by lia.
    replace ((0xDC00 + l) / 1024 * 1024) with 0xDC00 by lia.
    cbn [N.eqb Pos.eqb negb]. change (0xD800 =? 0xDC00) with false. change (0xD800 =? 0xD800) with true.
    change (0xDC00 =? 0xDC00) with true. cbn [negb].
    f_equal. f_equal. lia.
Qed.

Lemma decode_utf16_inv be eof bs c w : Forall byte_ok bs ->
  decode_utf16 be eof bs = Some (DChar c w) ->
  scalar_value c /\ w = nlen (utf16_enc be c) /\ exists rest, bs = utf16_enc be c ++ rest.
Proof.
  intros HB. unfold decode_utf16.
  destruct bs as [|b0 [|b1 bs]]; [destruct eof; discriminate..|].
  inversion HB as [|? ? Hb0 HB1]; subst. inversion HB1 as [|? ? Hb1 HB2]; subst. unfold byte_ok in *.
  pose proof (unit_value_lt be b0 b1 Hb0 Hb1) as Hv.
  pose proof (unit_bytes_value be b0 b1 Hb0 Hb1) as Ev.
  set (v := unit_value be b0 b1) in *. clearbody v.
  rewrite land_fc00 by exact Hv.
  destruct (N.eqb_spec (v / 1024 * 1024) 0xDC00); [discriminate|].
  destruct (N.eqb_spec (v / 1024 * 1024) 0xD800).
  - destruct bs as [|b2 [|b3 bs]]; [destruct eof; discriminate..|].
    inversion HB2 as [|? ? Hb2 HB3]; subst. inversion HB3 as [|? ? Hb3 HB4]; subst.
    pose proof (unit_value_lt be b2 b3 Hb2 Hb3) as Hv2.
    pose proof (unit_bytes_value be b2 b3 Hb2 Hb3) as Ev2.
    set (v2 := unit_value be b2 b3) in *. clearbody v2.
    rewrite land_fc00 by exact Hv2.
    destruct (N.eqb_spec (v2 / 1024 * 1024) 0xDC00); [|discriminate].
    cbn [negb]. rewrite !land_3ff, shl10.
    intros E. injection E as Ec Ew.
    assert (Hr : 0x10000 <= c /\ c <= 0x10FFFF) by lia.
    split; [unfold scalar_value; lia|]. rewrite utf16_enc_len.
    destruct (N.ltb_spec c 0x10000); [lia|]. split; [lia|].
    exists bs. unfold utf16_enc, utf16_units.
    destruct (N.ltb_spec c 0x10000); [lia|].
    cbn [flat_map]. rewrite app_nil_r.
    replace (0xD800 + (c - 0x10000) / 1024) with v by lia.
    replace (0xDC00 + (c - 0x10000) mod 1024) with v2 by lia.
    rewrite Ev, Ev2. reflexivity.
  - intros E. injection E as Ec Ew. subst c w.
    split; [unfold scalar_value; lia|]. rewrite utf16_enc_len.
    destruct (N.ltb_spec v 0x10000); [|lia]. split; [lia|].
    exists bs. unfold utf16_enc, utf16_units.
    destruct (N.ltb_spec v 0x10000); [|lia]. cbn [flat_map]. rewrite app_nil_r, Ev. reflexivity.
Qed.
