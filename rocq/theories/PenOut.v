(* What the writing functions of the emitter append to the output. *)
From Verif Require Import Base Utf8Spec ReaderModel CharSpec WriterModel WriterSpec PenModel.

(* one character of a given kind, or CR LF, or a flush *)
Definition one_char (P : N -> Prop) (l : list N) : Prop := (exists c, l = [c] /\ P c) \/ l = [0xD; 0xA].
Definition out_op (P : N -> Prop) (op : cop) : Prop :=
  match op with CPut l | CBreak l => one_char P l | CFlush => True end.
Definition adds (P : N -> Prop) (p p' : pen) : Prop := exists r, p_ops p' = p_ops p ++ r /\ Forall (out_op P) r.

Lemma alpha_ok c : is_alpha c = true -> 0x20 <= c /\ c <= 0x7E.
Proof. unfold is_alpha, is_digit, is_upper, is_lower, in_range. intros H. lia. Qed.

Section Adds.
  Variable P : N -> Prop.
  Variable g : cfg.
  Hypothesis Hb : g_break g <> AnyBreak.
  Hypothesis Plf : P 0xA.
  Hypothesis Pcr : P 0xD.
  Hypothesis Pascii : forall c, 0x20 <= c -> c <= 0x7E -> P c.

  Lemma adds_refl p : adds P p p.
  Proof. exists []. rewrite app_nil_r. split; [reflexivity|constructor]. Qed.
  Lemma adds_trans a b c : adds P a b -> adds P b c -> adds P a c.
  Proof. intros (r & E & F) (r' & E' & F'). exists (r ++ r'). rewrite E', E, app_assoc. split; [reflexivity|apply Forall_app; auto]. Qed.
  Lemma adds_ops p p' p'' : adds P p p' -> p_ops p'' = p_ops p' -> adds P p p''.
  Proof. intros (r & E & F) H. exists r. rewrite H. auto. Qed.
  Lemma adds_op p p' op : p_ops p' = p_ops p ++ [op] -> out_op P op -> adds P p p'.
  Proof. intros E O. exists [op]. split; [exact E|repeat constructor; exact O]. Qed.
  Lemma adds_put c p : P c -> adds P p (pput c p).
  Proof. intros H. eapply adds_op; [reflexivity|left; eauto]. Qed.
  Lemma adds_puts l : forall p, Forall P l -> adds P p (pputs l p).
  Proof.
    induction l as [|c r IH]; intros p F; [apply adds_refl|]. inversion F; subst. cbn. eapply adds_trans; [apply adds_put; eassumption|]. apply IH. assumption.
  Qed.
  Lemma break_out op : op = CPut (break_chars g) \/ op = CBreak (break_chars g) -> out_op P op.
  Proof. unfold break_chars. intros [-> | ->]; destruct (g_break g); cbn; unfold one_char; try congruence; eauto. Qed.
  Lemma adds_break p : adds P p (put_break g p).
  Proof. eapply adds_op; [reflexivity|]. apply break_out. auto. Qed.
  Lemma adds_write_break c p : P c -> adds P p (pwrite_break g c p).
  Proof. intros H. unfold pwrite_break. destruct (c =? 0xA); eapply adds_op; try reflexivity; [apply break_out; auto|left; eauto]. Qed.
  Lemma adds_indent n p : adds P p (write_indent g n p).
  Proof.
    unfold write_indent. eapply adds_ops; [|reflexivity]. eapply adds_trans; [|apply adds_puts].
    - match goal with |- context [if ?b then put_break _ _ else _] => destruct b end; [apply adds_break|apply adds_refl].
    - apply Forall_forall. intros x H. apply repeat_spec in H. subst. apply Pascii; lia.
  Qed.
  Lemma adds_space_if b p : adds P p (space_if b p).
  Proof. destruct b; [apply adds_put; apply Pascii; lia|apply adds_refl]. Qed.
  Lemma adds_indicator s a b c p : Forall P s -> adds P p (write_indicator s a b c p).
  Proof. intros F. eapply adds_ops; [|reflexivity]. eapply adds_trans; [apply adds_space_if|apply adds_puts; exact F]. Qed.
  Lemma adds_anchor s p : Forall P s -> adds P p (write_anchor s p).
  Proof. intros F. eapply adds_ops; [|reflexivity]. apply adds_puts; exact F. Qed.
  Lemma adds_tag_handle s p : Forall P s -> adds P p (write_tag_handle s p).
  Proof. intros F. eapply adds_ops; [|reflexivity]. eapply adds_trans; [apply adds_space_if|apply adds_puts; exact F]. Qed.
  Lemma hex_digit_ok d : d < 16 -> P (hex_digit d).
  Proof. intros H. unfold hex_digit. apply Pascii; destruct (N.ltb_spec d 10); lia. Qed.
  Lemma tag_plain_ok c : tag_plain c = true -> P c.
  Proof.
    unfold tag_plain. intros H. apply orb_prop in H as [H|H]; [apply alpha_ok in H; apply Pascii; lia|].
    apply existsb_exists in H as (x & I & E). apply N.eqb_eq in E. subst x. repeat (destruct I as [<-|I]; [apply Pascii; lia|]). destruct I.
  Qed.
  Lemma tag_char_ok c : c < 0x200000 -> Forall P (tag_char c).
  Proof.
    intros H. unfold tag_char. destruct (tag_plain c) eqn:E; [repeat constructor; apply tag_plain_ok; exact E|].
    assert (B : Forall (fun b => b < 256) (utf8_enc c)).
    { unfold utf8_enc. repeat match goal with |- context [?a <? ?b] => destruct (N.ltb_spec a b) end; repeat constructor; lia. }
    induction B as [|b l Hb' Bl IH]; [constructor|]. cbn [flat_map]. apply Forall_app. split; [|exact IH].
    unfold tag_escape. repeat constructor; [apply Pascii; lia| |]; apply hex_digit_ok.
    - rewrite N.shiftr_div_pow2. apply N.div_lt_upper_bound; cbn; lia.
    - change 0xF with (N.ones 4). rewrite N.land_ones. apply N.mod_lt. discriminate.
  Qed.
  Lemma adds_tag_content s b p : Forall (fun c => c < 0x200000) s -> adds P p (write_tag_content s b p).
  Proof.
    intros F. eapply adds_ops; [|reflexivity]. eapply adds_trans; [apply adds_space_if|apply adds_puts].
    induction F; [constructor|]. cbn [flat_map]. apply Forall_app. split; [apply tag_char_ok; assumption|assumption].
  Qed.

  Lemma adds_set p p' a b : adds P p p' -> adds P p (set_white p' a b).
  Proof. intros H. eapply adds_ops; [exact H|reflexivity]. Qed.
  Lemma adds_set_open p p' n : adds P p p' -> adds P p (set_open p' n).
  Proof. intros H. eapply adds_ops; [exact H|reflexivity]. Qed.
  Lemma adds_when (b : bool) p p' q : adds P p p' -> adds P p' q -> adds P p (if b then q else p').
  Proof. intros H K. destruct b; [eapply adds_trans; eassumption|exact H]. Qed.

  Lemma adds_plain_loop n allow s : Forall P s -> forall sp br p, adds P p (plain_loop g n allow sp br s p).
  Proof.
    induction 1 as [|c r Pc Pr IH]; intros sp br p; cbn [plain_loop]; [apply adds_refl|].
    destruct (is_space c).
    { match goal with |- context [if ?b then _ else _] => destruct b end; (eapply adds_trans; [|apply IH]); [apply adds_indent|apply adds_put; exact Pc]. }
    destruct (is_break c); (eapply adds_trans; [|apply IH]); apply adds_set.
    - eapply adds_trans; [|apply adds_write_break; exact Pc]. apply adds_when; [apply adds_refl|apply adds_break].
    - eapply adds_trans; [|apply adds_put; exact Pc]. apply adds_when; [apply adds_refl|apply adds_indent].
  Qed.
  Lemma adds_plain n fl s allow p : Forall P s -> adds P p (write_plain g n fl s allow p).
  Proof. intros F. apply adds_set. eapply adds_trans; [apply adds_space_if|apply adds_plain_loop; exact F]. Qed.

  Lemma adds_single_loop n allow s : Forall P s -> forall fi sp br p, adds P p (fst (single_loop g n allow fi sp br s p)).
  Proof.
    induction 1 as [|c r Pc Pr IH]; intros fi sp br p; cbn [single_loop]; [apply adds_refl|].
    destruct (is_space c).
    { match goal with |- context [if ?b then _ else _] => destruct b end; (eapply adds_trans; [|apply IH]); [apply adds_indent|apply adds_put; exact Pc]. }
    destruct (is_break c); (eapply adds_trans; [|apply IH]); apply adds_set.
    - eapply adds_trans; [|apply adds_write_break; exact Pc]. apply adds_when; [apply adds_refl|apply adds_break].
    - eapply adds_trans; [|apply adds_put; exact Pc]. apply adds_when; [apply adds_when; [apply adds_refl|apply adds_indent]|apply adds_put; apply Pascii; lia].
  Qed.
  Lemma adds_single n s allow p : Forall P s -> adds P p (write_single g n s allow p).
  Proof.
    intros F. unfold write_single.
    assert (Q : Forall P [0x27]) by (repeat constructor; apply Pascii; lia).
    pose proof (adds_single_loop n allow s F true false false (write_indicator [0x27] true false false p)) as L.
    destruct (single_loop _ _ _ _ _ _ _ _) as [p1 br]. cbn [fst] in L. apply adds_set.
    eapply adds_trans; [|apply adds_indicator; exact Q]. apply adds_when; [|apply adds_indent]. eapply adds_trans; [apply adds_indicator; exact Q|exact L].
  Qed.

  Lemma hex_digits_ok k v : Forall P (hex_digits k v).
  Proof.
    induction k; cbn [hex_digits]; constructor; [|assumption]. apply hex_digit_ok. change 0xF with (N.ones 4). rewrite N.land_ones. apply N.mod_lt. discriminate.
  Qed.
  Lemma escape_code_ok v : Forall P (escape_code v).
  Proof.
    unfold escape_code. repeat match goal with |- context [if ?b then _ else _] => destruct b end; (apply Forall_cons; [apply Pascii; lia|first [apply Forall_nil|apply hex_digits_ok]]).
  Qed.
  (* the characters not escaped *)
  Lemma adds_double_loop n allow s : Forall (fun c => must_escape g c = false -> P c) s -> forall fi sp p, adds P p (double_loop g n allow fi sp s p).
  Proof.
    induction 1 as [|c r Pc Pr IH]; intros fi sp p; cbn [double_loop]; [apply adds_refl|].
    destruct (must_escape g c) eqn:E.
    { eapply adds_trans; [|apply IH]. apply adds_puts. constructor; [apply Pascii; lia|apply escape_code_ok]. }
    destruct (is_space c).
    - match goal with |- context [if ?b then _ else _] => destruct b end; (eapply adds_trans; [|apply IH]); [|apply adds_put; auto].
      apply adds_when; [apply adds_indent|apply adds_put; apply Pascii; lia].
    - eapply adds_trans; [|apply IH]. apply adds_put; auto.
  Qed.
  Lemma adds_double n s allow p : Forall (fun c => must_escape g c = false -> P c) s -> adds P p (write_double g n s allow p).
  Proof.
    intros F. assert (Q : Forall P [0x22]) by (repeat constructor; apply Pascii; lia). apply adds_set.
    eapply adds_trans; [|apply adds_indicator; exact Q]. eapply adds_trans; [apply adds_indicator; exact Q|apply adds_double_loop; exact F].
  Qed.

  Hypothesis Hi : (2 <= g_indent g <= 9)%Z.
  Lemma adds_hints s p : adds P p (write_hints g s p).
  Proof.
    unfold write_hints. assert (C : Forall P (fst (chomp_hint s))).
    { unfold chomp_hint. destruct (rev s) as [|c r]; [repeat constructor; apply Pascii; lia|]. destruct (negb (is_break c)); [repeat constructor; apply Pascii; lia|].
      destruct r as [|d ?]; [repeat constructor; apply Pascii; lia|]. destruct (is_break d); repeat constructor; apply Pascii; lia. }
    destruct (chomp_hint s) as [h o]. cbn [fst] in C.
    match goal with |- context [set_open ?x o] => set (p1 := x) end.
    assert (A : adds P p p1).
    { unfold p1. apply adds_when; [apply adds_refl|]. apply adds_indicator. constructor; [|constructor]. apply Pascii; lia. }
    clearbody p1. destruct h; [apply adds_set_open; exact A|]. eapply adds_trans; [apply adds_set_open; exact A|apply adds_indicator; exact C].
  Qed.
  Lemma adds_literal_loop n s : Forall P s -> forall br p, adds P p (literal_loop g n br s p).
  Proof.
    induction 1 as [|c r Pc Pr IH]; intros br p; cbn [literal_loop]; [apply adds_refl|].
    destruct (is_break c); (eapply adds_trans; [|apply IH]); apply adds_set.
    - apply adds_write_break. exact Pc.
    - eapply adds_trans; [|apply adds_put; exact Pc]. apply adds_when; [apply adds_refl|apply adds_indent].
  Qed.
  Lemma adds_literal n s p : Forall P s -> adds P p (write_literal g n s p).
  Proof.
    intros F. unfold write_literal. eapply adds_trans; [|apply adds_literal_loop; exact F]. apply adds_set. eapply adds_trans; [|apply adds_break].
    eapply adds_trans; [|apply adds_hints]. apply adds_indicator. repeat constructor. apply Pascii; lia.
  Qed.
  Lemma adds_folded_loop n s : Forall P s -> forall br ld p, adds P p (folded_loop g n br ld s p).
  Proof.
    induction 1 as [|c r Pc Pr IH]; intros br ld p; cbn [folded_loop]; [apply adds_refl|].
    destruct (is_break c); (eapply adds_trans; [|apply IH]); apply adds_set.
    - eapply adds_trans; [|apply adds_write_break; exact Pc]. apply adds_when; [apply adds_refl|apply adds_break].
    - match goal with |- adds P p (if ?b then write_indent _ _ ?x else _) => assert (A : adds P p x) by (apply adds_when; [apply adds_refl|apply adds_indent]); destruct b end.
      + eapply adds_trans; [exact A|apply adds_indent].
      + eapply adds_trans; [exact A|apply adds_put; exact Pc].
  Qed.
  Lemma adds_folded n s p : Forall P s -> adds P p (write_folded g n s p).
  Proof.
    intros F. unfold write_folded. eapply adds_trans; [|apply adds_folded_loop; exact F]. apply adds_set. eapply adds_trans; [|apply adds_break].
    eapply adds_trans; [|apply adds_hints]. apply adds_indicator. repeat constructor. apply Pascii; lia.
  Qed.
End Adds.
