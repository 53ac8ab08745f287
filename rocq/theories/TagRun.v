(* Reading tags, anchors and aliases from a text that is completely in the buffer. *)
From Verif Require Import Base ReaderModel Utf8Spec Utf8Lemmas CharSpec Types CursorModel ScanModel PlanFree FullRun WriterModel WriterSpec PenModel EscapeRun RoundSpec.

Lemma next_column_add a b m : next_column a (next_column b m) = next_column (b + a) m.
Proof. unfold next_column. cbn [m_index m_line m_column]. rewrite !N.add_assoc. reflexivity. Qed.
Lemma next_column_0 m : next_column 0 m = m.
Proof. destruct m. unfold next_column. cbn. rewrite !N.add_0_r. reflexivity. Qed.
Lemma nlen_S {A} (x : A) l : 1 + nlen l = nlen (x :: l).
Proof. rewrite nlen_cons. lia. Qed.

Lemma read_while_run p w rest : forall s m, Forall (fun c => p c = true) w -> p (nth 0 rest 0) = false ->
  read_while p s (fc (w ++ rest) m) = COk (s ++ utf8 w) (fc rest (next_column (nlen w) m)).
Proof.
  induction w as [|x w IH]; intros s m F N.
  - unfold read_while. cbn [app]. rewrite (loop_end _ s (fc rest m) s (fc rest m)).
    + cbn. rewrite app_nil_r, next_column_0. reflexivity.
    + run. rewrite N. reflexivity.
  - inversion F as [|? ? Fx Fw]; subst. unfold read_while. cbn [app].
    apply (loop_go _ _ _ (s ++ utf8_enc x) (fc (w ++ rest) (next_column 1 m))).
    + run. cbn [nth]. rewrite Fx. run. reflexivity.
    + cbn. lia.
    + fold (read_while p (s ++ utf8_enc x)). rewrite (IH _ _ Fw N), next_column_add, (nlen_S x). cbn [utf8 flat_map]. rewrite <- app_assoc. reflexivity.
Qed.
Lemma skip_while_run p w rest : forall m, Forall (fun c => p c = true) w -> p (nth 0 rest 0) = false ->
  skip_while p (fc (w ++ rest) m) = COk tt (fc rest (next_column (nlen w) m)).
Proof.
  induction w as [|x w IH]; intros m F N.
  - unfold skip_while. cbn [app]. rewrite (loop_end _ tt (fc rest m) tt (fc rest m)).
    + cbn. rewrite next_column_0. reflexivity.
    + run. rewrite N. reflexivity.
  - inversion F as [|? ? Fx Fw]; subst. unfold skip_while. cbn [app].
    apply (loop_go _ _ _ tt (fc (w ++ rest) (next_column 1 m))).
    + run. cbn [nth]. rewrite Fx. run. reflexivity.
    + cbn. lia.
    + fold (skip_while p). rewrite (IH _ Fw N), next_column_add, (nlen_S x). reflexivity.
Qed.

(* ---- escapes ---- *)
Lemma alpha_ascii c : is_alpha c = true -> c < 0x80.
Proof. unfold is_alpha, is_digit, is_upper, is_lower, in_range. lia. Qed.
Lemma enc_ascii c : c < 0x80 -> utf8_enc c = [c].
Proof. intros H. unfold utf8_enc. replace (c <? 0x80) with true by lia. reflexivity. Qed.
Lemma utf8_ascii s : Forall (fun c => c < 0x80) s -> utf8 s = s.
Proof. induction 1 as [|c s H _ IH]; [reflexivity|]. cbn [utf8 flat_map]. rewrite (enc_ascii c H). cbn [app]. f_equal. exact IH. Qed.
Lemma tag_plain_ascii c : tag_plain c = true -> 0x21 < c < 0x7F.
Proof. unfold tag_plain. cbn [existsb]. unfold is_alpha, is_digit, is_upper, is_lower, in_range. lia. Qed.

Lemma byte_hex b : b < 256 -> exists h l, N.shiftr b 4 = h /\ N.land b 0xF = l /\ h < 16 /\ l < 16 /\ h * 16 + l = b.
Proof.
  intros H. exists (b / 16), (b mod 16). rewrite N.shiftr_div_pow2. change (2 ^ 4) with 16. change 0xF with (N.ones 4). rewrite N.land_ones. change (2 ^ 4) with 16.
  repeat split; try lia.
Qed.
Lemma uri_width_is b : uri_width b = N.to_nat (utf8_width b).
Proof. unfold uri_width, utf8_width. repeat (destruct (_ =? _); [reflexivity|]). reflexivity. Qed.

Definition trail (b : N) : Prop := b < 256 /\ (N.land b 0xC0 =? 0x80) = true.
(* one octet *)
Definition esc_body (start : mark) (st : nat * nat * list N) : cm (nat * nat * list N + list N) :=
    let '(width, free, s) := st in
    cache 3 ;;;
    ok <- andc (check 0 (eqc 0x25)) (andc (check 1 is_hex) (check 2 is_hex)) ;;
    if negb ok then err (Some start) SUriOctet else
    a <- peek 1 ;; b <- peek 2 ;;
    let octet := as_hex a * 16 + as_hex b in
    w <- (if (width =? 0)%nat
          then if (uri_width octet =? 0)%nat then err (Some start) SUriLead else ret (uri_width octet)
          else if negb (N.land octet 0xC0 =? 0x80) then err (Some start) SUriTrail else ret width) ;;
    match free with
    | O => ub
    | S rest' =>
        skip ;;; skip ;;; skip ;;;
        match w with
        | S (S w') => ret (inl (S w', rest', s ++ [octet]))
        | _ => ret (inr (s ++ [octet]))
        end
    end.
Lemma esc_octet start width room' s b t m w : b < 256 ->
  (if (width =? 0)%nat then uri_width b = S w else width = S w /\ (N.land b 0xC0 =? 0x80) = true) ->
  esc_body start (width, S room', s) (fc (tag_escape b ++ t) m) =
  COk (match w with O => inr (s ++ [b]) | S w' => inl (S w', room', s ++ [b]) end) (fc t (next_column 3 m)).
Proof.
  intros B W. destruct (byte_hex b B) as (h & l & Eh & El & Hh & Hl & E). unfold tag_escape. rewrite Eh, El. cbn [app].
  destruct (hex_digit_ok h Hh) as (H1 & H2 & H3). destruct (hex_digit_ok l Hl) as (L1 & L2 & L3).
  unfold esc_body. run. cbn [nth]. change (eqc 0x25 0x25) with true. cbv iota. run.
  rewrite (r_check 1); [|cbn; lia|reflexivity]. cbn [nth]. rewrite H1. cbv iota.
  rewrite (r_check 2); [|cbn; lia|cbn; rewrite H3; reflexivity]. cbn [nth]. rewrite L1. cbn [negb]. cbv iota.
  rewrite (r_peek 1); [|cbn; lia|reflexivity]. cbn [nth]. rewrite (r_peek 2); [|cbn; lia|cbn; rewrite H3; reflexivity]. cbn [nth].
  rewrite H2, L2. cbv zeta. rewrite E.
  assert (R : forall (k : nat -> cm (nat * nat * list N + list N)) c,
    bind (if (width =? 0)%nat then if (uri_width b =? 0)%nat then err (Some start) SUriLead else ret (uri_width b)
          else if negb (N.land b 0xC0 =? 0x80) then err (Some start) SUriTrail else ret width) k c = k (S w) c).
  { intros k c. destruct (width =? 0)%nat eqn:Z.
    - rewrite W. reflexivity.
    - destruct W as [-> ->]. reflexivity. }
  rewrite R. run. rewrite !next_column_add. destruct w; reflexivity.
Qed.
Lemma esc_trails start t bs : forall room' s m, Forall trail bs -> bs <> [] -> (length bs <= room')%nat ->
  loop (esc_body start) (length bs, room', s) (fc (flat_map tag_escape bs ++ t) m) = COk (s ++ bs) (fc t (next_column (3 * nlen bs) m)).
Proof.
  induction bs as [|b bs IH]; intros room' s m F N L; [contradiction|]. inversion F as [|? ? [Fb Ft] Fs]; subst.
  destruct room' as [|room']; [cbn in L; lia|]. cbn [flat_map]. rewrite <- app_assoc.
  pose proof (esc_octet start (length (b :: bs)) room' s b (flat_map tag_escape bs ++ t) m (length bs) Fb (conj eq_refl Ft)) as E.
  destruct bs as [|b' bs].
  - cbn [length] in E. apply loop_end. exact E.
  - cbn [length] in E. eapply loop_go; [exact E|cbn [c_text fc tag_escape app length]; lia|].
    etransitivity; [apply (IH room' (s ++ [b]) (next_column 3 m) Fs); [discriminate|cbn [length] in *; lia]|]. rewrite <- app_assoc, next_column_add. cbn [app].
    rewrite (nlen_cons b). replace (3 * (1 + nlen (b' :: bs))) with (3 + 3 * nlen (b' :: bs)) by lia. reflexivity.
Qed.
Lemma trails c b l : c < 0x200000 -> utf8_enc c = b :: l -> b < 256 /\ Forall trail l /\ uri_width b = S (length l).
Proof.
  intros H E. pose proof (utf8_enc_bytes c H) as B. destruct (utf8_enc_head_width c [] H) as (b' & l' & E' & W). rewrite app_nil_r, E in E'. injection E' as <- <-.
  rewrite E in B. inversion B as [|? ? Bb Bl]; subst. split; [exact Bb|]. split.
  - unfold utf8_enc in E. destruct (c <? 0x80); [injection E as <- <-; constructor|].
    assert (T : forall b, 0x80 <= b < 0xC0 -> trail b) by (intros x Hx; split; [lia|rewrite trailing_spec by lia; lia]).
    destruct (c <? 0x800); [|destruct (c <? 0x10000)]; injection E as <- <-; repeat constructor; try lia; rewrite trailing_spec by lia; lia.
  - rewrite uri_width_is, W, E, nlen_cons. unfold nlen. lia.
Qed.
Lemma escapes_run start c t s m : c < 0x200000 ->
  scan_uri_escapes start s (fc (flat_map tag_escape (utf8_enc c) ++ t) m) = COk (s ++ utf8_enc c) (fc t (next_column (nlen (flat_map tag_escape (utf8_enc c))) m)).
Proof.
  intros H. destruct (utf8_enc c) as [|b l] eqn:E; [exfalso; exact (utf8_enc_nonempty c E)|]. destruct (trails c b l H E) as (B & F & W).
  pose proof (utf8_enc_len c) as L. rewrite E, nlen_cons in L.
  assert (X : forall l, nlen (flat_map tag_escape l) = 3 * nlen l) by (induction l0 as [|y l0 IH]; [reflexivity|cbn [flat_map]; rewrite nlen_app, IH, nlen_cons; change (nlen (tag_escape y)) with 3; lia]).
  rewrite X. change (scan_uri_escapes start s) with (loop (esc_body start) (O, room, s)). cbn [flat_map]. rewrite <- app_assoc.
  pose proof (esc_octet start 0 4 s b (flat_map tag_escape l ++ t) m (length l) B W) as E1. change (S 4) with room in E1. destruct l as [|b' l].
  - apply loop_end. exact E1.
  - cbn [length] in E1. eapply loop_go; [exact E1|cbn [c_text fc tag_escape app length]; lia|].
    etransitivity; [apply (esc_trails start t (b' :: l) 4 (s ++ [b]) (next_column 3 m) F); [discriminate|unfold nlen in L; cbn [length] in *; lia]|].
    rewrite <- app_assoc, next_column_add. cbn [app]. rewrite (nlen_cons b). replace (3 * (1 + nlen (b' :: l))) with (3 + 3 * nlen (b' :: l)) by lia. reflexivity.
Qed.

(* ---- URIs ---- *)
(* which characters may be written after the handle *)
Definition uri_ok (u : bool) (c : N) : Prop := scalar_value c /\ c <> 0 /\ (u = true \/ (c <> 0x2C /\ c <> 0x5B /\ c <> 0x5D)).
Definition uri_body (u : bool) (start : mark) (st : list N * bool) : cm (list N * bool + list N * bool) :=
    let '(s, some) := st in
    b <- check 0 (uri_class u) ;;
    if b then
      pct <- check 0 (eqc 0x25) ;;
      s' <- (if pct then scan_uri_escapes start s else read s) ;;
      cache 1 ;;; ret (inl (s', true))
    else ret (inr st).
Lemma plain_class u c : tag_plain c = true -> (u = true \/ (c <> 0x2C /\ c <> 0x5B /\ c <> 0x5D)) -> uri_class u c = true /\ c <> 0x25.
Proof.
  intros H U. split.
  - unfold uri_class. unfold tag_plain in H. cbn [existsb] in *. destruct (is_alpha c) eqn:A; [reflexivity|]. cbn [orb] in H |- *.
    destruct U as [->|U]; cbn [andb]; [|destruct u; cbn [andb]]; unfold is_alpha, is_digit, is_upper, is_lower, in_range in A; lia.
  - intros ->. discriminate H.
Qed.
Lemma tag_char_class u c : uri_ok u c -> exists x l, tag_char c = x :: l /\ uri_class u x = true.
Proof.
  intros (S & _ & U). unfold tag_char. destruct (tag_plain c) eqn:P; [exists c, []; split; [reflexivity|exact (proj1 (plain_class u c P U))]|].
  destruct (utf8_enc c) as [|b l] eqn:E; [exfalso; exact (utf8_enc_nonempty c E)|]. cbn [flat_map tag_escape app]. eexists _, _. split; [reflexivity|]. unfold uri_class. reflexivity.
Qed.
Lemma uri_char_step u start c t s b m : uri_ok u c ->
  uri_body u start (s, b) (fc (tag_char c ++ t) m) = COk (inl (s ++ utf8_enc c, true)) (fc t (next_column (nlen (tag_char c)) m)).
Proof.
  intros K. pose proof K as (S & _ & U). assert (C : c < 0x200000) by (unfold scalar_value in S; lia). unfold tag_char. destruct (tag_plain c) eqn:P.
  - destruct (plain_class u c P U) as [Q N]. unfold uri_body. cbn [app]. run. cbn [nth]. rewrite Q. run. cbn [nth]. unfold eqc. replace (c =? 0x25) with false by lia. run. reflexivity.
  - destruct (utf8_enc c) as [|x l] eqn:E; [exfalso; exact (utf8_enc_nonempty c E)|]. rewrite <- E. unfold uri_body.
    assert (X : exists r, flat_map tag_escape (utf8_enc c) ++ t = 0x25 :: r) by (rewrite E; cbn [flat_map tag_escape app]; eauto). destruct X as [r X].
    run. rewrite X. cbn [nth]. change (uri_class u 0x25) with true. run. cbn [nth]. change (eqc 0x25 0x25) with true. cbv iota. rewrite <- X.
    unfold bind at 1. rewrite (escapes_run start c t s m C). run. reflexivity.
Qed.
Lemma tag_char_nonempty c : (0 < length (tag_char c))%nat.
Proof. unfold tag_char. destruct (tag_plain c); [cbn; lia|]. destruct (utf8_enc c) as [|b l] eqn:E; [exfalso; exact (utf8_enc_nonempty c E)|]. cbn. lia. Qed.
Lemma uri_loop u start rest x : forall s b m, Forall (uri_ok u) x -> uri_class u (nth 0 rest 0) = false ->
  loop (uri_body u start) (s, b) (fc (flat_map tag_char x ++ rest) m) =
  COk (s ++ utf8 x, b || match x with [] => false | _ => true end) (fc rest (next_column (nlen (flat_map tag_char x)) m)).
Proof.
  induction x as [|c x IH]; intros s b m F N.
  - apply loop_end. unfold uri_body. cbn [flat_map app]. run. rewrite N. unfold ret. rewrite nlen_nil, next_column_0. cbn. rewrite app_nil_r, orb_false_r. reflexivity.
  - inversion F as [|? ? Fc Fx]; subst. cbn [flat_map]. rewrite <- app_assoc. pose proof (tag_char_nonempty c) as L.
    eapply loop_go; [apply (uri_char_step u start c (flat_map tag_char x ++ rest) s b m Fc)|cbn [c_text fc]; rewrite (app_length (tag_char c)); lia|].
    rewrite (IH _ true _ Fx N), next_column_add, nlen_app. cbn [utf8 flat_map]. rewrite <- app_assoc, orb_true_r. reflexivity.
Qed.
Lemma cstr_id s : Forall (fun c => c <> 0) s -> cstr s = s.
Proof. induction 1 as [|c s H _ IH]; [reflexivity|]. cbn [cstr]. replace (c =? 0) with false by lia. rewrite IH. reflexivity. Qed.
Lemma enc_nonzero c : scalar_value c -> c <> 0 -> Forall (fun b => b <> 0) (utf8_enc c).
Proof.
  intros S H. unfold utf8_enc. destruct (N.ltb_spec c 0x80); [|destruct (N.ltb_spec c 0x800); [|destruct (N.ltb_spec c 0x10000)]]; repeat constructor; lia.
Qed.
Lemma utf8_nonzero u x : Forall (uri_ok u) x -> Forall (fun b => b <> 0) (utf8 x).
Proof. induction 1 as [|c x (S & N & _) _ IH]; [constructor|]. cbn [utf8 flat_map]. apply Forall_app. split; [apply enc_nonzero; assumption|exact IH]. Qed.
(* [head] is the handle already read: '!' and letters *)
Lemma uri_run u head x rest start m : Forall (uri_ok u) x -> uri_class u (nth 0 rest 0) = false -> Forall (fun c => c <> 0) (tl head) -> head <> [] \/ x <> [] ->
  scan_tag_uri u head start (fc (flat_map tag_char x ++ rest) m) = COk (tl head ++ utf8 x) (fc rest (next_column (nlen (flat_map tag_char x)) m)).
Proof.
  intros F N H Ne. unfold scan_tag_uri. run. fold (uri_body u start). unfold bind.
  change (loop _ (tl head, match head with [] => false | _ => true end) (fc (flat_map tag_char x ++ rest) m)) with
    (loop (uri_body u start) (tl head, match head with [] => false | _ => true end) (fc (flat_map tag_char x ++ rest) m)).
  rewrite (uri_loop u start rest x _ _ _ F N). cbn [fst snd].
  replace (match head with [] => false | _ => true end || match x with [] => false | _ => true end) with true by (destruct head, x, Ne; try contradiction; reflexivity).
  cbv iota. rewrite cstr_id; [reflexivity|]. apply Forall_app. split; [exact H|apply (utf8_nonzero u); exact F].
Qed.

(* ---- handles ---- *)
Lemma alphas_utf8 a : Forall (fun c => is_alpha c = true) a -> utf8 a = a.
Proof. intros F. apply utf8_ascii. eapply Forall_impl; [|exact F]. intros c. apply alpha_ascii. Qed.
Lemma read_one s x t m : read s (fc (x :: t) m) = COk (s ++ utf8_enc x) (fc t (next_column 1 m)).
Proof. reflexivity. Qed.
Lemma handle_long directive start name rest m : Forall (fun c => is_alpha c = true) name ->
  scan_tag_handle directive start (fc (0x21 :: name ++ 0x21 :: rest) m) =
  COk (0x21 :: name ++ [0x21]) (fc rest (next_column (nlen (0x21 :: name ++ [0x21])) m)).
Proof.
  intros F. unfold scan_tag_handle. run. cbn [nth]. change (eqc 0x21 0x21) with true. cbn [negb]. run. unfold bind at 1.
  rewrite (read_while_run is_alpha name (0x21 :: rest) _ _ F eq_refl). run. cbn [nth]. change (eqc 0x21 0x21) with true. cbv iota.
  rewrite (alphas_utf8 _ F). cbn [app]. change (utf8_enc 0x21) with [0x21]. cbn [app]. etransitivity; [apply read_one|]. change (utf8_enc 0x21) with [0x21]. rewrite !next_column_add, nlen_cons, nlen_app. cbn [app].
  replace (1 + nlen name + 1) with (1 + (nlen name + nlen [0x21])) by (change (nlen [0x21]) with 1; lia). reflexivity.
Qed.
Lemma handle_short (directive : bool) start a rest m : Forall (fun c => is_alpha c = true) a -> is_alpha (nth 0 rest 0) = false -> nth 0 rest 0 <> 0x21 ->
  (directive = true -> a = []) ->
  scan_tag_handle directive start (fc (0x21 :: a ++ rest) m) = COk (0x21 :: a) (fc rest (next_column (nlen (0x21 :: a)) m)).
Proof.
  intros F N B D. unfold scan_tag_handle. run. cbn [nth]. change (eqc 0x21 0x21) with true. cbn [negb]. run. unfold bind at 1.
  rewrite (read_while_run is_alpha a rest _ _ F N). run. unfold eqc. replace (nth 0 rest 0 =? 0x21) with false by (symmetry; apply N.eqb_neq; exact B). cbv iota.
  rewrite (alphas_utf8 _ F). cbn [app]. change (utf8_enc 0x21) with [0x21]. cbn [app].
  replace (directive && negb (str_eqb (0x21 :: a) [0x21])) with false by (destruct directive; [rewrite (D eq_refl)|]; reflexivity).
  unfold ret. rewrite next_column_add, nlen_cons. reflexivity.
Qed.
Lemma split_alpha (x : list N) : exists a y, x = a ++ y /\ Forall (fun c => is_alpha c = true) a /\ is_alpha (nth 0 y 0) = false.
Proof.
  induction x as [|c x (a & y & -> & F & N)]; [exists [], []; repeat split; constructor|]. destruct (is_alpha c) eqn:E.
  - exists (c :: a), y. split; [reflexivity|]. split; [constructor; assumption|exact N].
  - exists [], (c :: a ++ y). split; [reflexivity|]. split; [constructor|exact E].
Qed.
Lemma alpha_chars a : Forall (fun c => is_alpha c = true) a -> flat_map tag_char a = a.
Proof. induction 1 as [|c a H _ IH]; [reflexivity|]. cbn [flat_map]. unfold tag_char, tag_plain. rewrite H. cbn [orb app]. f_equal. exact IH. Qed.
Lemma tag_head y rest : is_alpha (nth 0 y 0) = false -> (y = [] -> is_alpha (nth 0 rest 0) = false /\ nth 0 rest 0 <> 0x21 /\ nth 0 rest 0 <> 0x3C) ->
  let x := nth 0 (flat_map tag_char y ++ rest) 0 in is_alpha x = false /\ x <> 0x21 /\ x <> 0x3C.
Proof.
  cbv zeta. destruct y as [|c y]; intros A R; [exact (R eq_refl)|]. cbn [nth] in A. cbn [flat_map]. rewrite <- app_assoc. assert (T : tag_char c = if tag_plain c then [c] else flat_map tag_escape (utf8_enc c)) by reflexivity. rewrite T. clear T. destruct (tag_plain c) eqn:P.
  - cbn [app nth]. split; [exact A|]. split; intros ->; discriminate P.
  - destruct (utf8_enc c) as [|b l] eqn:E; [exfalso; exact (utf8_enc_nonempty c E)|]. cbn [flat_map tag_escape app nth]. repeat split; discriminate.
Qed.

(* ---- tags ---- *)
Definition tag_text (h : option (list N)) (x : list N) : list N :=
  match h with Some h => h ++ flat_map tag_char x | None => 0x21 :: 0x3C :: flat_map tag_char x ++ [0x3E] end.
Definition tag_tok (h : option (list N)) (x : list N) : tok :=
  match h, x with
  | None, _ => TTag [] (utf8 x)
  | Some _, [] => TTag [] [0x21]
  | Some h, _ => TTag h (utf8 x)
  end.
Definition tag_fits (h : option (list N)) (x : list N) : Prop :=
  match h with
  | None => x <> [] /\ Forall (uri_ok true) x
  | Some h => Forall (uri_ok false) x /\ ((exists name, h = 0x21 :: name ++ [0x21] /\ Forall (fun c => is_alpha c = true) name /\ x <> []) \/ h = [0x21])
  end.
Lemma blankz_class u x : is_blankz x = true -> uri_class u x = false /\ is_alpha x = false /\ x <> 0x21 /\ x <> 0x3C /\ x <> 0x25.
Proof.
  intros H. assert (U : uri_class u x = false).
  { destruct (uri_class u x) eqn:E; [|reflexivity]. unfold uri_class in E. cbn [existsb] in E. unfold is_blankz, is_blank, is_space, is_tab, is_breakz, is_break, is_z in H.
    unfold is_alpha, is_digit, is_upper, is_lower, in_range in E. destruct u; cbn [andb] in E; lia. }
  split; [exact U|]. unfold is_blankz, is_blank, is_space, is_tab, is_breakz, is_break, is_z in H. unfold is_alpha, is_digit, is_upper, is_lower, in_range. repeat split; try lia; intros ->; discriminate H.
Qed.
Lemma follow_class flow rest : tag_follow flow rest -> uri_class false (nth 0 rest 0) = false /\ is_alpha (nth 0 rest 0) = false /\ nth 0 rest 0 <> 0x21 /\ nth 0 rest 0 <> 0x3C.
Proof.
  intros [H|[_ H]]; [|rewrite H; repeat split; discriminate]. destruct (blankz_class false _ H) as (A & B & C & D & _). auto.
Qed.
Lemma r_tag_end {B} (flow : bool) rest m (k : bool -> cm B) : tag_follow flow rest ->
  bind (check 0 is_blankz) (fun z => bind (if z then ret true else andc (ret flow) (check 0 (eqc 0x2C))) k) (fc rest m) = k true (fc rest m).
Proof.
  intros [H|[-> H]]; rewrite r_check0.
  - rewrite H. reflexivity.
  - rewrite H. change (is_blankz 0x2C) with false. cbv iota. rewrite r_and, r_ret. cbv iota. rewrite r_check0, H. reflexivity.
Qed.
Lemma scan_tag_run (flow : bool) h x rest m : tag_fits h x -> tag_follow flow rest ->
  scan_tag flow (fc (tag_text h x ++ rest) m) =
  COk (mkToken (tag_tok h x) m (next_column (nlen (tag_text h x)) m) false) (fc rest (next_column (nlen (tag_text h x)) m)).
Proof.
  intros T R. destruct (follow_class flow rest R) as (R1 & R2 & R3 & R4). unfold scan_tag. rewrite r_mark, r_cache.
  destruct h as [h|].
  - destruct T as [F [(name & -> & Fn & Nx)| ->]].
    + cbn [tag_text]. rewrite <- app_assoc. cbn [app]. rewrite <- (app_assoc name). cbn [app].
      rewrite (r_check 1); [|cbn [length]; rewrite app_length; cbn; lia|reflexivity]. cbn [nth].
      assert (E : eqc 0x3C (nth 0 (name ++ 0x21 :: flat_map tag_char x ++ rest) 0) = false).
      { destruct name as [|c name]; [reflexivity|]. inversion Fn as [|? ? Fc _]; subst. cbn [app nth]. unfold eqc. apply N.eqb_neq. intros ->. discriminate Fc. }
      rewrite E. cbv iota. rewrite r_bind. unfold bind at 1. rewrite (handle_long false m name (flat_map tag_char x ++ rest) m Fn).
      replace (is_handle (0x21 :: name ++ [0x21])) with true.
      2:{ unfold is_handle. rewrite app_comm_cons, last_last. destruct (name ++ [0x21]) eqn:Z; [destruct name; discriminate|]. reflexivity. }
      rewrite r_bind. unfold bind at 1. rewrite (uri_run false [] x rest m _ F R1 (Forall_nil _) (or_intror Nx)). rewrite r_ret, r_cache, r_tag_end by exact R. cbn [negb]. rewrite r_mark.
      unfold ret. rewrite !next_column_add. 
      replace (nlen (0x21 :: (name ++ [0x21]) ++ flat_map tag_char x)) with (nlen (0x21 :: name ++ [0x21]) + nlen (flat_map tag_char x)) by (change (0x21 :: (name ++ [0x21]) ++ flat_map tag_char x) with ((0x21 :: name ++ [0x21]) ++ flat_map tag_char x); rewrite nlen_app; reflexivity).
      unfold tag_tok. cbn [tl app]. destruct x; [contradiction|]. reflexivity.
    + cbn [tag_text app]. destruct (split_alpha x) as (a & y & -> & Fa & Ny). rewrite flat_map_app, (alpha_chars _ Fa), <- app_assoc. apply Forall_app in F as [Fa' Fy].
      destruct (tag_head y rest Ny) as (Y1 & Y2 & Y3); [auto|].
      assert (E : (1 <= length (0x21%N :: a ++ flat_map tag_char y ++ rest))%nat) by (cbn; lia).
      rewrite (r_check 1); [|exact E|reflexivity]. cbn [nth].
      assert (E2 : eqc 0x3C (nth 0 (a ++ flat_map tag_char y ++ rest) 0) = false).
      { apply N.eqb_neq. destruct a as [|c a]; [exact Y3|]. inversion Fa as [|? ? Fc _]; subst. cbn [app nth]. intros ->. discriminate Fc. }
      rewrite E2. cbv iota. rewrite r_bind. unfold bind at 1. rewrite (handle_short false m a _ m Fa Y1 Y2) by discriminate.
      replace (is_handle (0x21 :: a)) with false.
      2:{ unfold is_handle. destruct a as [|c a] using rev_ind; [reflexivity|]. clear IHa. rewrite app_comm_cons, last_last. apply Forall_app in Fa as [_ Fc]. inversion Fc as [|? ? K _]; subst. destruct (a ++ [c]) eqn:Z; [reflexivity|]. symmetry. apply N.eqb_neq. intros ->. discriminate K. }
      rewrite r_bind. unfold bind at 1. rewrite (uri_run false (0x21 :: a) y rest m _ Fy R1); [|cbn [tl]; eapply Forall_impl; [|exact Fa]; intros c Hc ->; discriminate Hc|left; discriminate].
      cbn [tl]. assert (U : a ++ utf8 y = utf8 (a ++ y)) by (unfold utf8; rewrite flat_map_app; fold (utf8 a); rewrite (alphas_utf8 _ Fa); reflexivity). rewrite U.
      assert (X : forall k : tok -> cm token, bind (match utf8 (a ++ y) with [] => ret (TTag [] [0x21]) | _ :: _ => ret (TTag [0x21] (utf8 (a ++ y))) end) k = k (tag_tok (Some [0x21]) (a ++ y))).
      { intros k. unfold tag_tok. destruct (a ++ y) as [|c z]; [reflexivity|]. cbn [utf8 flat_map]. destruct (utf8_enc c) eqn:Z; [exfalso; exact (utf8_enc_nonempty c Z)|]. reflexivity. }
      rewrite X. rewrite r_cache, r_tag_end by exact R. cbn [negb]. rewrite r_mark. unfold ret. rewrite next_column_add.
      replace (nlen (0x21 :: a ++ flat_map tag_char y)) with (nlen (0x21 :: a) + nlen (flat_map tag_char y)) by (rewrite app_comm_cons, nlen_app; reflexivity). reflexivity.
  - destruct T as [Nx F]. cbn [tag_text app]. rewrite (r_check 1); [|cbn; lia|reflexivity]. cbn [nth]. change (eqc 0x3C 0x3C) with true. cbv iota.
    rewrite r_bind, r_skip, r_bind, r_skip, r_bind. unfold bind at 1. rewrite <- app_assoc. cbn [app].
    rewrite (uri_run true [] x (0x3E :: rest) m _ F eq_refl (Forall_nil _) (or_intror Nx)). run. cbn [nth]. change (eqc 0x3E 0x3E) with true. cbn [negb]. rewrite r_bind, r_skip, r_ret, r_cache, r_tag_end by exact R. cbn [negb]. rewrite r_mark.
    unfold ret. rewrite !next_column_add. replace (nlen (0x21 :: 0x3C :: flat_map tag_char x ++ [0x3E])) with (1 + (1 + (nlen (flat_map tag_char x) + 1))) by (rewrite !nlen_cons, nlen_app, nlen_cons, nlen_nil; lia).
    unfold tag_tok. cbn [tl app]. reflexivity.
Qed.

(* ---- anchors and aliases ---- *)
Lemma scan_anchor_run (anchor : bool) x a rest m : a <> [] -> Forall (fun c => is_alpha c = true) a -> anchor_end (nth 0 rest 0) = true ->
  scan_anchor anchor (fc (x :: a ++ rest) m) =
  COk (mkToken (if anchor then TAnchor a else TAlias a) m (next_column (nlen (x :: a)) m) false) (fc rest (next_column (nlen (x :: a)) m)).
Proof.
  intros Na F E. unfold scan_anchor. run. unfold bind at 1.
  rewrite (read_while_run is_alpha a rest [] _ F).
  2:{ destruct (is_alpha (nth 0 rest 0)) eqn:A; [|reflexivity]. unfold anchor_end, is_blankz, is_blank, is_breakz, is_break, is_z, is_space, is_tab in E. cbn [existsb] in E.
      unfold is_alpha, is_digit, is_upper, is_lower, in_range in A. lia. }
  cbn [app]. rewrite (alphas_utf8 _ F). run. destruct a as [|y a]; [contradiction|]. run. rewrite E. cbn [negb]. unfold ret. rewrite next_column_add, (nlen_S x). reflexivity.
Qed.

(* ---- directives ---- *)
