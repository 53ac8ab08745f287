(* The text a pen has written. *)
From Verif Require Import Base Utf8Spec ReaderModel CharSpec WriterModel WriterSpec PenModel.

Definition chars (p : pen) : list N := chars_of (p_ops p).
Lemma chars_pop p op col : chars (pop_ p op col) = chars p ++ chars_of [op].
Proof. unfold chars, pop_. cbn [p_ops]. unfold chars_of. rewrite flat_map_app. reflexivity. Qed.
Lemma chars_put c p : chars (pput c p) = chars p ++ [c].
Proof. apply chars_pop. Qed.
Lemma chars_puts l : forall p, chars (pputs l p) = chars p ++ l.
Proof.
  induction l as [|c l IH]; intros p; [cbn; rewrite app_nil_r; reflexivity|]. change (pputs (c :: l) p) with (pputs l (pput c p)). rewrite IH, chars_put, <- app_assoc. reflexivity.
Qed.
Lemma chars_break g p : chars (put_break g p) = chars p ++ break_chars g.
Proof. unfold put_break. rewrite chars_pop. cbn. rewrite app_nil_r. reflexivity. Qed.
Definition break_text (g : cfg) (c : N) : list N := if c =? 0xA then break_chars g else [c].
Lemma chars_wbreak g c p : chars (pwrite_break g c p) = chars p ++ break_text g c.
Proof. unfold pwrite_break, break_text. destruct (c =? 0xA); rewrite chars_pop; cbn; rewrite ?app_nil_r; reflexivity. Qed.
Lemma chars_white p w i : chars (set_white p w i) = chars p. Proof. reflexivity. Qed.
Lemma chars_indention p i : chars (set_indention p i) = chars p. Proof. reflexivity. Qed.
Lemma chars_open p o : chars (set_open p o) = chars p. Proof. reflexivity. Qed.
Lemma pputs_state l : forall p, p_column (pputs l p) = (p_column p + Z.of_nat (length l))%Z /\ p_white (pputs l p) = p_white p /\ p_indention (pputs l p) = p_indention p /\ p_open (pputs l p) = p_open p.
Proof.
  induction l as [|c l IH]; intros p; [cbn; repeat split; lia|]. change (pputs (c :: l) p) with (pputs l (pput c p)). destruct (IH (pput c p)) as (E1 & E2 & E3 & E4).
  rewrite E1, E2, E3, E4. cbn [length pput pop_ p_column p_white p_indention p_open]. repeat split; lia.
Qed.

(* yaml_emitter_write_indent when a line break is due *)
Lemma indent_break g i p : (0 <= i)%Z -> p_indention p = false \/ (i < p_column p)%Z ->
  chars (write_indent g i p) = chars p ++ break_chars g ++ repeat 0x20 (Z.to_nat i) /\
  p_column (write_indent g i p) = i /\ p_white (write_indent g i p) = true /\ p_indention (write_indent g i p) = true.
Proof.
  intros Hi H. unfold write_indent. replace (i >=? 0)%Z with true by lia.
  replace (negb (p_indention p) || (p_column p >? i)%Z || (p_column p =? i)%Z && negb (p_white p)) with true.
  2:{ destruct H as [->|H]; [reflexivity|]. replace (p_column p >? i)%Z with true by lia. rewrite orb_true_r. reflexivity. }
  rewrite chars_white, chars_puts, chars_break. cbn [set_white p_column p_white p_indention]. rewrite (proj1 (pputs_state _ _)), repeat_length. cbn [put_break pop_ p_column].
  rewrite Z.sub_0_r, <- app_assoc. repeat split. lia.
Qed.
(* and when the line has just been broken *)
Lemma indent_pad g i p : (0 < i)%Z -> p_indention p = true -> p_column p = 0%Z ->
  chars (write_indent g i p) = chars p ++ repeat 0x20 (Z.to_nat i) /\
  p_column (write_indent g i p) = i /\ p_white (write_indent g i p) = true /\ p_indention (write_indent g i p) = true.
Proof.
  intros Hi H C. unfold write_indent. replace (i >=? 0)%Z with true by lia. rewrite H, C.
  replace (negb true || (0 >? i)%Z || (0 =? i)%Z && negb (p_white p)) with false by (replace (0 >? i)%Z with false by lia; replace (0 =? i)%Z with false by lia; reflexivity).
  rewrite chars_white, chars_puts. cbn [set_white p_column p_white p_indention]. rewrite (proj1 (pputs_state _ _)), repeat_length, C, Z.sub_0_r. repeat split. lia.
Qed.
Lemma indicator_text s need w i p : exists sp, chars (write_indicator s need w i p) = chars p ++ sp ++ s /\
  sp = (if need && negb (p_white p) then [0x20] else []) /\
  p_column (write_indicator s need w i p) = (p_column p + Z.of_nat (length sp) + Z.of_nat (length s))%Z /\ p_white (write_indicator s need w i p) = w /\
  p_indention (write_indicator s need w i p) = p_indention p && i.
Proof.
  exists (if need && negb (p_white p) then [0x20] else []). unfold write_indicator. rewrite chars_white, chars_puts. unfold space_if. cbn [set_white p_column p_white p_indention].
  destruct (pputs_state s (if need && negb (p_white p) then pput 0x20 p else p)) as (E1 & E2 & E3 & E4). rewrite E1, E3.
  destruct (need && negb (p_white p)).
  - rewrite chars_put, <- app_assoc. split; [reflexivity|]. split; [reflexivity|]. cbn [pput pop_ p_column p_indention length]. repeat split; lia.
  - split; [reflexivity|]. split; [reflexivity|]. cbn [length]. repeat split; lia.
Qed.
