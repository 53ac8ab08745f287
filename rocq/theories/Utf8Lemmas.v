(* Facts relating the bit operations of the C code to the arithmetic spec. *)
From Verif Require Import Base Utf8Spec ReaderModel.

Lemma land_ones_mod a n m : m = N.ones n -> N.land a m = a mod 2 ^ n.
Proof. intros ->. apply N.land_ones. Qed.
Lemma land_3f a : N.land a 0x3F = a mod 64.
Proof. rewrite (land_ones_mod a 6); reflexivity. Qed.
Lemma land_3ff a : N.land a 0x3FF = a mod 1024.
Proof. rewrite (land_ones_mod a 10); reflexivity. Qed.
Lemma land_ff a : N.land a 0xFF = a mod 256.
Proof. rewrite (land_ones_mod a 8); reflexivity. Qed.
Lemma shr6 a : N.shiftr a 6 = a / 64.
Proof. rewrite N.shiftr_div_pow2. reflexivity. Qed.
Lemma shr8 a : N.shiftr a 8 = a / 256.
Proof. rewrite N.shiftr_div_pow2. reflexivity. Qed.
Lemma shr10 a : N.shiftr a 10 = a / 1024.
Proof. rewrite N.shiftr_div_pow2. reflexivity. Qed.
Lemma shr12 a : N.shiftr a 12 = a / 4096.
Proof. rewrite N.shiftr_div_pow2. reflexivity. Qed.
Lemma shr18 a : N.shiftr a 18 = a / 262144.
Proof. rewrite N.shiftr_div_pow2. reflexivity. Qed.
Lemma shl6 a : N.shiftl a 6 = a * 64.
Proof. rewrite N.shiftl_mul_pow2. reflexivity. Qed.
Lemma shl8 a : N.shiftl a 8 = a * 256.
Proof. rewrite N.shiftl_mul_pow2. reflexivity. Qed.
Lemma shl10 a : N.shiftl a 10 = a * 1024.
Proof. rewrite N.shiftl_mul_pow2. reflexivity. Qed.

Lemma utf8_width_spec b : b < 256 -> utf8_width b =
  if b <? 0x80 then 1 else if b <? 0xC0 then 0 else if b <? 0xE0 then 2
  else if b <? 0xF0 then 3 else if b <? 0xF8 then 4 else 0.
Proof.
  intros H. apply N.eqb_eq.
  revert b H. apply (byte_sweep (fun b => utf8_width b =?
   (if b <? 0x80 then 1 else if b <? 0xC0 then 0 else if b <? 0xE0 then 2
  else if b <? 0xF0 then 3 else if b <? 0xF8 then 4 else 0))).
  vm_compute. reflexivity.
Qed.

Lemma utf8_lead_value_spec b : b < 256 -> utf8_lead_value b =
  if b <? 0x80 then b else if b <? 0xC0 then 0 else if b <? 0xE0 then b - 0xC0
  else if b <? 0xF0 then b - 0xE0 else if b <? 0xF8 then b - 0xF0 else 0.
Proof.
  intros H. apply N.eqb_eq.
  revert b H. apply (byte_sweep (fun b => utf8_lead_value b =?
   (if b <? 0x80 then b else if b <? 0xC0 then 0 else if b <? 0xE0 then b - 0xC0
  else if b <? 0xF0 then b - 0xE0 else if b <? 0xF8 then b - 0xF0 else 0))).
  vm_compute. reflexivity.
Qed.

Lemma trailing_spec b : b < 256 -> (N.land b 0xC0 =? 0x80) = ((0x80 <=? b) && (b <? 0xC0)).
Proof.
  intros H. apply eqb_prop.
  revert b H. apply (byte_sweep (fun b => eqb (N.land b 0xC0 =? 0x80) ((0x80 <=? b) && (b <? 0xC0)))).
  vm_compute. reflexivity.
Qed.

Lemma put_utf8_enc c : put_utf8 c = utf8_enc c.
Proof.
  unfold put_utf8, utf8_enc.
  rewrite !land_3f, !shr6, !shr12, !shr18.
  replace (c <=? 0x7F) with (c <? 0x80) by lia.
  replace (c <=? 0x7FF) with (c <? 0x800) by lia.
  replace (c <=? 0xFFFF) with (c <? 0x10000) by lia.
  reflexivity.
Qed.

Lemma utf8_enc_nonempty c : utf8_enc c <> [].
Proof. unfold utf8_enc. repeat (destruct (_ <? _)); discriminate. Qed.

Lemma utf8_enc_len c : 1 <= nlen (utf8_enc c) <= 4.
Proof. unfold utf8_enc. repeat (destruct (_ <? _)); rewrite !nlen_cons, nlen_nil; lia. Qed.

(* generalised range covered by four byte forms *)
Lemma utf8_enc_bytes c : c < 0x200000 -> Forall byte_ok (utf8_enc c).
Proof.
  intros H. unfold utf8_enc, byte_ok.
  destruct (N.ltb_spec c 0x80); [|destruct (N.ltb_spec c 0x800); [|destruct (N.ltb_spec c 0x10000)]];
  repeat constructor; lia.
Qed.

Lemma utf8_enc_head_width c rest : c < 0x200000 ->
  exists b l, utf8_enc c ++ rest = b :: l /\ utf8_width b = nlen (utf8_enc c).
Proof.
  intros H. pose proof (utf8_enc_bytes c H) as HB. revert HB.
  unfold utf8_enc.
  destruct (N.ltb_spec c 0x80); [|destruct (N.ltb_spec c 0x800); [|destruct (N.ltb_spec c 0x10000)]];
  intros HB; inversion HB as [|? ? Hb]; subst; cbn [app]; eexists _, _; split; try reflexivity;
  rewrite (utf8_width_spec _ Hb), ?nlen_cons, ?nlen_nil;
  repeat match goal with |- context [?a <? ?b] => destruct (N.ltb_spec a b); try lia end; reflexivity.
Qed.

Lemma firstn_nlen_app {A} (l k : list A) : firstn (N.to_nat (nlen l)) (l ++ k) = l.
Proof.
  unfold nlen. rewrite Nnat.Nat2N.id, firstn_app, Nat.sub_diag, firstn_all. cbn. apply app_nil_r.
Qed.
Lemma skipn_nlen_app {A} (l k : list A) : skipn (N.to_nat (nlen l)) (l ++ k) = k.
Proof.
  unfold nlen. rewrite Nnat.Nat2N.id, skipn_app, Nat.sub_diag, skipn_all. reflexivity.
Qed.

(* [char_allowed] is the YAML set *)
Lemma char_allowed_spec c : char_allowed c = true <-> yaml_char c.
Proof. unfold char_allowed, yaml_char. lia. Qed.
Lemma yaml_char_scalar c : yaml_char c -> scalar_value c.
Proof. unfold yaml_char, scalar_value. lia. Qed.
Lemma yaml_char_nz c : yaml_char c -> c <> 0.
Proof. unfold yaml_char. lia. Qed.

(* decoding inverts encoding, and accepts nothing else *)
Lemma decode_utf8_enc eof c rest : scalar_value c ->
  decode_utf8 eof (utf8_enc c ++ rest) = Some (DChar c (nlen (utf8_enc c))).
Proof.
  intros Hs.
  assert (Hc : c < 0x200000) by (unfold scalar_value in Hs; lia).
  pose proof (utf8_enc_bytes c Hc) as HB.
  unfold utf8_enc in *.
  destruct (N.ltb_spec c 0x80); [|destruct (N.ltb_spec c 0x800); [|destruct (N.ltb_spec c 0x10000)]];
  unfold byte_ok in HB;
  repeat match goal with H : Forall _ (_ :: _) |- _ => inversion H; clear H; subst end;
  cbn [app]; unfold decode_utf8;
  rewrite utf8_width_spec, utf8_lead_value_spec by assumption;
  repeat match goal with |- context [?a <? ?b] =>
    match a with context [if _ then _ else _] => fail 1 | nlen _ => fail 1 | _ => destruct (N.ltb_spec a b); try lia end end;
  rewrite !nlen_cons, ?nlen_nil;
  match goal with |- context [?a =? 0] => replace (a =? 0) with false by lia end;
  match goal with |- context [?a <? ?b] => replace (a <? b) with false by lia end;
  cbn [N.to_nat N.sub Pos.to_nat Pos.iter_op Nat.add utf8_trail];
  change (N.to_nat (1-1)) with 0%nat; change (N.to_nat (2-1)) with 1%nat;
  change (N.to_nat (3-1)) with 2%nat; change (N.to_nat (4-1)) with 3%nat;
  cbn [utf8_trail];
  rewrite ?trailing_spec by assumption;
  repeat (match goal with |- context [negb ((0x80 <=? ?a) && (?a <? 0xC0))] =>
    replace (negb ((0x80 <=? a) && (a <? 0xC0))) with false by lia end);
  rewrite ?land_3f, ?shl6;
  match goal with |- context [Some (DChar ?v _)] => replace v with c by lia end;
  match goal with |- context [if negb ?b then _ else _] => replace (negb b) with false by (unfold scalar_value in *; lia) end;
  match goal with |- context [if ?b then Some (DErr InvalidUnicode _ _) else _] => replace b with false by (unfold scalar_value in *; lia) end;
  reflexivity.
Qed.

Lemma decode_utf8_inv eof bs c w : Forall byte_ok bs ->
  decode_utf8 eof bs = Some (DChar c w) ->
  scalar_value c /\ w = nlen (utf8_enc c) /\ exists rest, bs = utf8_enc c ++ rest.
Proof.
  intros HB. destruct bs as [|b0 bs]; [discriminate|].
  unfold decode_utf8.
  inversion HB as [|? ? Hb0 HB1]; subst. unfold byte_ok in *.
  rewrite utf8_width_spec, utf8_lead_value_spec by assumption.
  destruct (N.ltb_spec b0 0x80); [|destruct (N.ltb_spec b0 0xC0); [discriminate|
    destruct (N.ltb_spec b0 0xE0); [|destruct (N.ltb_spec b0 0xF0); [|destruct (N.ltb_spec b0 0xF8);[|discriminate]]]]];
  match goal with |- context [?a =? 0] => replace (a =? 0) with false by reflexivity end;
  match goal with |- context [nlen ?l <? ?b] => destruct (N.ltb_spec (nlen l) b); [destruct eof; discriminate|] end;
  change (N.to_nat (1-1)) with 0%nat; change (N.to_nat (2-1)) with 1%nat;
  change (N.to_nat (3-1)) with 2%nat; change (N.to_nat (4-1)) with 3%nat;
  cbn [utf8_trail];
  rewrite ?nlen_cons in *;
  repeat (match goal with |- context [match ?l with [] => _ | _ :: _ => _ end] =>
    destruct l as [|? ?]; [rewrite ?nlen_cons, ?nlen_nil in *; try lia|] end;
    inversion HB1 as [|? ? ? HB2]; subst; clear HB1; rename HB2 into HB1; rewrite trailing_spec by assumption;
    match goal with |- context [negb ?b] => destruct b eqn:?; cbn [negb]; [|discriminate] end);
  rewrite ?land_3f, ?shl6;
  match goal with |- context [if negb ?b then _ else _] => destruct b eqn:?; cbn [negb]; [|discriminate] end;
  match goal with |- context [if ?b then Some (DErr InvalidUnicode _ _) else _] => destruct b eqn:?; [discriminate|] end;
  intros E; injection E; intros Ew Ec;
  match goal with Hb : (_ || _) = false |- _ => rewrite Ec in Hb end;
  match goal with Hb : _ = true |- _ => rewrite ?Ec in Hb end;
  (split; [unfold scalar_value; lia|]);
  unfold utf8_enc;
  repeat match goal with |- context [c <? ?b] => destruct (N.ltb_spec c b); try lia end;
  rewrite ?nlen_cons, ?nlen_nil; (split; [lia|]).
  - exists bs. cbn [app]. f_equal. lia.
  - exists bs. cbn [app]. repeat (apply f_equal2; [lia|]). reflexivity.
  - exists bs. cbn [app]. repeat (apply f_equal2; [lia|]). reflexivity.
  - exists bs. cbn [app]. repeat (apply f_equal2; [lia|]). reflexivity.
Qed.
