(* The scanner with memory (HeapScanModel.v) does what the scanner without memory
   (ScannerModel.v) does, or runs out of memory. *)
From Verif Require Import Base ReaderModel Utf8Spec CharSpec Types CursorModel ScanModel ParserModel DocModel
  HeapModel HeapSpec HeapLemmas HeapEvents HeapLoaderModel HeapTokenModel HeapTokenSpec HeapScan HeapLexModel HeapLex HeapLexRun HeapLexScalar
  ScannerModel HeapScanModel HeapScanSpec.

(* ---- arrays ---- *)
Definition room {A} (a : arr A) : Prop := a_at a <> None /\ fits a = true /\ (0 < a_cap a)%nat.
Lemma push_room {A} (a b : arr A) x ok h h' : room a -> h_push a x h = HOk (b, ok) h' -> fits b = true /\ (0 < a_cap b)%nat.
Proof.
  intros (P & F & C) E. unfold fits in *. apply Nat.leb_le in F. unfold h_push, hbind in E.
  destruct (Nat.eqb (a_off a + length (a_els a)) (a_cap a)) eqn:Q.
  - apply Nat.eqb_eq in Q. unfold h_extend in E. destruct (a_at a) as [p|]; [|congruence]. destruct (Nat.eqb (a_off a) 0) eqn:Z.
    + apply Nat.eqb_eq in Z. unfold hbind in E. destruct (h_touch (Some p) h) as [u h1| |]; try discriminate E.
      destruct (h_malloc [] h1) as [[q|] h2| |]; try discriminate E.
      * destruct (h_free (Some p) h2) as [u2 h3| |]; try discriminate E. cbn [hret a_at a_els a_off a_cap] in E.
        destruct (h_touch (Some q) h3) as [u4 h4| |]; try discriminate E. injection E as <- _ _. cbn [a_els a_off a_cap].
        rewrite app_length. cbn [length]. split; [apply Nat.leb_le; lia|lia].
      * cbn [hret] in E. injection E as <- _ _. split; [apply Nat.leb_le; lia|lia].
    + apply Nat.eqb_neq in Z. unfold hbind in E. destruct (h_touch (Some p) h) as [u h1| |]; try discriminate E. cbn [hret a_at a_els a_off a_cap] in E.
      destruct (h_touch (Some p) h1) as [u4 h4| |]; try discriminate E. injection E as <- _ _. cbn [a_els a_off a_cap].
      rewrite app_length. cbn [length]. split; [apply Nat.leb_le; lia|lia].
  - apply Nat.eqb_neq in Q. cbn [hret] in E. destruct (h_touch (a_at a) h) as [u h1| |]; try discriminate E. injection E as <- _ _. cbn [a_els a_off a_cap].
    rewrite app_length. cbn [length]. split; [apply Nat.leb_le; lia|lia].
Qed.
Lemma push_within {A} (a : arr A) x h : good h -> room a -> holds h (ptr_blocks (a_at a)) ->
  does (within (h_push a x)) h (ptr_blocks (a_at a)) (fun r g h' => g = ptr_blocks (a_at (fst r)) /\ room (fst r) /\
    (if snd r then a_els (fst r) = a_els a ++ [x] else fst r = a) /\ (generous h -> snd r = true)).
Proof.
  intros G R H. destruct (h_push_does a x h G (proj1 R) H) as ([b ok] & g & h1 & E & G1 & X1 & C1 & Eg & P & Q & Y). cbn [fst snd] in *.
  destruct (push_room a b x ok h h1 R E) as [F C]. exists (b, ok), g, h1. unfold within, hbind. rewrite E. cbn [fst snd]. rewrite F.
  split; [reflexivity|]. split; [exact G1|]. split; [exact X1|]. split; [exact C1|]. split; [exact Eg|]. split; [split; [exact P|split; assumption]|]. auto.
Qed.
Lemma insert_within {A} (a : arr A) k x h : good h -> room a -> holds h (ptr_blocks (a_at a)) ->
  does (within (h_insert a k x)) h (ptr_blocks (a_at a)) (fun r g h' => g = ptr_blocks (a_at (fst r)) /\ room (fst r) /\
    (if snd r then a_els (fst r) = insert_at k x (a_els a) else fst r = a) /\ (generous h -> snd r = true)).
Proof.
  intros G R H. destruct (h_push_does a x h G (proj1 R) H) as ([b ok] & g & h1 & E & G1 & X1 & C1 & Eg & P & Q & Y). cbn [fst snd] in *.
  destruct (push_room a b x ok h h1 R E) as [F C].
  exists (if ok then (mkArr (a_at b) (insert_at k x (a_els a)) (a_off b) (a_cap b), true) else (b, false)), g, h1. unfold within, h_insert, hbind. rewrite E. cbn [hret].
  destruct ok; cbn [fst snd a_at a_els a_off a_cap].
  - assert (F' : fits (mkArr (a_at b) (insert_at k x (a_els a)) (a_off b) (a_cap b)) = true).
    { unfold fits in *. cbn [a_els a_off a_cap]. rewrite Q in F. replace (length (insert_at k x (a_els a))) with (length (a_els a ++ [x])); [exact F|].
      unfold insert_at. rewrite !app_length. cbn [length]. rewrite <- (firstn_skipn k (a_els a)) at 1. rewrite app_length. lia. }
    rewrite F'. split; [reflexivity|]. split; [exact G1|]. split; [exact X1|]. split; [exact C1|]. split; [exact Eg|]. split; [split; [exact P|split; assumption]|]. auto.
  - rewrite F. split; [reflexivity|]. split; [exact G1|]. split; [exact X1|]. split; [exact C1|]. split; [exact Eg|]. split; [split; [exact P|split; assumption]|]. auto.
Qed.

(* ---- simulation ---- *)
Definition ywf (y : ysc) : Prop :=
  room (y_tokens y) /\ room (y_indents y) /\ room (y_keys y) /\ Forall (fun t => sound_tok (ht_tok t)) (a_els (y_tokens y)).
Definition ysim {A B} (m : ym A) (p : sm B) (R : A -> B -> Prop) : Prop :=
  forall y h, good h -> holds h (y_blocks y) -> ywf y -> p (y_at h y) <> SBad -> p (y_at h y) <> SFuel ->
  match m y h with
  | YOk a y' h' => good h' /\ ext h h' /\ changes h (y_blocks y) (y_blocks y') h' /\ ywf y' /\
      exists b, p (y_at h y) = SOk b (y_at h' y') /\ R a b
  | YErr e y' h' => good h' /\ ext h h' /\ changes h (y_blocks y) (y_blocks y') h' /\ ywf y' /\
      match e with XScan e => p (y_at h y) = SErr e | _ => ~ generous h end
  | _ => False
  end.
Definition same (y : ysc) (s : sc) : Prop := exists h, s = y_at h y.
Notation ysim0 m p := (ysim m p (fun _ _ => True)).

Lemma changes_holds h taken given h' : changes h taken given h' -> holds h taken -> holds h' given.
Proof. intros C H b. specialize (C b). specialize (H b). lia. Qed.
Lemma changes_compose a l b m c n : changes a l m b -> changes b m n c -> changes a l n c.
Proof. intros C D x. specialize (C x). specialize (D x). lia. Qed.
Lemma ysim_bind {A A' B B'} (m : ym A) (k : A -> ym A') (p : sm B) (q : B -> sm B') R R' :
  ysim m p R -> (forall a b, R a b -> ysim (k a) (q b) R') -> ysim (ybind m k) (sbind p q) R'.
Proof.
  intros M K y h G H W NB NF. unfold ybind, sbind in *. specialize (M y h G H W).
  assert (NB' : p (y_at h y) <> SBad) by (intros E; rewrite E in NB; apply NB; reflexivity).
  assert (NF' : p (y_at h y) <> SFuel) by (intros E; rewrite E in NF; apply NF; reflexivity).
  specialize (M NB' NF'). destruct (m y h) as [a y1 h1|e y1 h1| |]; [| |exact M|exact M].
  - destruct M as (G1 & X1 & C1 & W1 & b & E & r). rewrite E in *.
    specialize (K a b r y1 h1 G1 (changes_holds _ _ _ _ C1 H) W1 NB NF). destruct (k a y1 h1) as [a2 y2 h2|e y2 h2| |]; [| |exact K|exact K].
    + destruct K as (G2 & X2 & C2 & W2 & K). split; [exact G2|]. split; [eapply ext_trans; eassumption|]. split; [eapply changes_compose; eassumption|]. auto.
    + destruct K as (G2 & X2 & C2 & W2 & K). split; [exact G2|]. split; [eapply ext_trans; eassumption|]. split; [eapply changes_compose; eassumption|]. split; [exact W2|].
      destruct e; [exact K| |]; intros g; apply K, X1, g.
  - destruct M as (G1 & X1 & C1 & W1 & E). split; [exact G1|]. split; [exact X1|]. split; [exact C1|]. split; [exact W1|]. destruct e; [rewrite E; reflexivity|exact E|exact E].
Qed.
Lemma changes_same h l : changes h l l h. Proof. intros b. lia. Qed.
Lemma ysim_ret {A B} (a : A) (b : B) (R : A -> B -> Prop) : R a b -> ysim (yret a) (sret b) R.
Proof. intros r y h G H W _ _. split; [exact G|]. split; [apply ext_refl|]. split; [apply changes_same|]. split; [exact W|]. exists b. auto. Qed.
Lemma ysim_get : ysim yget ScannerModel.get same.
Proof. intros y h G H W _ _. split; [exact G|]. split; [apply ext_refl|]. split; [apply changes_same|]. split; [exact W|]. exists (y_at h y). split; [reflexivity|exists h; reflexivity]. Qed.
(* the state is known *)
Lemma ysim_here {A B} (k : ysc -> ym A) (q : sc -> sm B) R : (forall y s, same y s -> ysim (k y) (q s) R) -> ysim (ybind yget k) (sbind ScannerModel.get q) R.
Proof. intros K. eapply ysim_bind; [apply ysim_get|exact K]. Qed.
Lemma ysim_weaken {A B} (m : ym A) (p : sm B) (R R' : A -> B -> Prop) : ysim m p R -> (forall a b, R a b -> R' a b) -> ysim m p R'.
Proof.
  intros M K y h G H W NB NF. specialize (M y h G H W NB NF). destruct (m y h); [|exact M|exact M|exact M].
  destruct M as (G1 & X1 & C1 & W1 & b & E & r). split; [exact G1|]. split; [exact X1|]. split; [exact C1|]. split; [exact W1|]. exists b. auto.
Qed.
Lemma ysim_pure {A B} (m : ym A) (p p' : sm B) R : (forall s, p s = p' s) -> ysim m p' R -> ysim m p R.
Proof. intros E M y h G H W NB NF. rewrite E in *. exact (M y h G H W NB NF). Qed.
Lemma ysim_mod f : (forall h y, f (y_at h y) = y_at h (with_sc y (f (y_sc y)))) -> ysim (ymod f) (modify f) (fun _ _ => True).
Proof.
  intros F y h G H W _ _. split; [exact G|]. split; [apply ext_refl|]. split; [apply changes_same|]. split; [exact W|]. exists tt. unfold modify. rewrite F. auto.
Qed.
Lemma ysim_allow b : ysim (y_allow b) (allow b) (fun _ _ => True).
Proof. apply ysim_mod. reflexivity. Qed.
Lemma ysim_io {A} (m : cm A) : ysim (yio m) (lift m) eq.
Proof.
  intros y h G H W NB NF. unfold yio, lift in *. cbn [y_at s_cur] in *. destruct (m (s_cur (y_sc y))) as [a c|e| |]; try congruence.
  - split; [exact G|]. split; [apply ext_refl|]. split; [apply changes_same|]. split; [exact W|]. exists a. auto.
  - split; [exact G|]. split; [apply ext_refl|]. split; [apply changes_same|]. split; [exact W|]. reflexivity.
Qed.
Lemma ysim_error {A B} ctx p (R : A -> B -> Prop) : ysim (yerror ctx p) (serror ctx p) R.
Proof. intros y h G H W _ _. split; [exact G|]. split; [apply ext_refl|]. split; [apply changes_same|]. split; [exact W|]. reflexivity. Qed.
Lemma ysim_bad {A B} (m : ym A) (R : A -> B -> Prop) : ysim m (fun _ => SBad) R.
Proof. intros y h G H W NB. congruence. Qed.
Lemma holds_part h l k : holds h l -> (forall b, (cnt k b <= cnt l b)%nat) -> holds h k.
Proof. intros H I b. specialize (H b). specialize (I b). lia. Qed.

Ltac yb := unfold y_blocks, with_sc, with_tokens, with_indents, with_keys, set_els in *; cbn [y_sc y_raw y_buffer y_tokens y_indents y_keys a_at a_els] in *.
Lemma y_at_ext h h' y : good h -> ext h h' -> holds h (flat_map token_blocks (a_els (y_tokens y))) -> y_at h' y = y_at h y.
Proof. intros G X H. unfold y_at. rewrite (tokens_ext h h' _ G X H). reflexivity. Qed.

(* ---- arrays of the parser ---- *)
Lemma ysim_enqueue t t' : token_blocks t = [] -> sound_tok (ht_tok t) -> (forall h, token_at h t = t') -> ysim0 (y_try (y_enqueue t)) (enqueue t').
Proof.
  intros B St T y h G H W _ _. unfold y_try, y_enqueue, ybind, yget, yh, yput, yret, yfail.
  assert (H1 : holds h (ptr_blocks (a_at (y_tokens y)))) by (clear - H; yb; cn).
  assert (H2 : holds h (flat_map token_blocks (a_els (y_tokens y)))) by (clear - H; yb; cn).
  destruct W as (W1 & W2 & W3 & W4).
  destruct (push_within (y_tokens y) t h G W1 H1) as ([q ok] & g & h1 & E & G1 & X1 & C1 & -> & P & Q & Y). rewrite E. cbn [fst snd] in *.
  destruct ok.
  - split; [exact G1|]. split; [exact X1|]. split; [|split; [(split; [exact P|split; [exact W2|split; [exact W3|cbn [with_tokens y_tokens]; rewrite Q; apply Forall_app; auto]]])|]].
    + clear - C1 Q B. yb. rewrite Q, flat_map_app. cbn [flat_map]. rewrite B. cn.
    + exists tt. split; [|trivial]. unfold enqueue, modify, set_tokens, y_at. yb. cbn [s_cur s_enc s_started s_ended s_error s_flow s_tokens s_parsed s_avail s_indents s_indent s_allowed s_keys s_nest].
      rewrite Q, map_app, (tokens_ext h h1 _ G X1 H2). cbn [map]. rewrite T. reflexivity.
  - subst q. split; [exact G1|]. split; [exact X1|]. split; [clear - C1; yb; cn|]. split; [split; [exact P|auto]|]. intros g. discriminate (Y g).
Qed.
Lemma ysim_token t s e t' : tok_blocks t = [] -> sound_tok t -> (forall h, tok_at h t = t') -> ysim0 (y_token t s e) (enqueue (mkToken t' s e false)).
Proof. intros B St T. apply ysim_enqueue; [exact B|exact St|]. intros h. unfold token_at. cbn [ht_tok ht_start ht_end ht_deep]. rewrite T. reflexivity. Qed.
Lemma ysim_insert n t t' : token_blocks t = [] -> sound_tok (ht_tok t) -> (forall h, token_at h t = t') -> ysim0 (y_try (y_insert n t)) (queue_insert n t').
Proof.
  intros B St T y h G H W NB NF. unfold queue_insert in *. unfold y_try, y_insert, ybind at 1 2, yget. cbv zeta in *.
  unfold y_at in NB, NF. cbn [s_parsed s_tokens] in NB, NF. rewrite map_length in NB, NF.
  unfold y_at at 3. unfold y_at at 3. cbn [s_parsed s_tokens].
  destruct (_ && _) eqn:I in NB; [|congruence]. clear NB NF.
  assert (H1 : holds h (ptr_blocks (a_at (y_tokens y)))) by (clear - H; yb; cn).
  assert (H2 : holds h (flat_map token_blocks (a_els (y_tokens y)))) by (clear - H; yb; cn).
  destruct W as (W1 & W2 & W3 & W4). rewrite I. set (k := N.to_nat (n - s_parsed (y_sc y))) in *.
  destruct (insert_within (y_tokens y) k t h G W1 H1) as ([q ok] & g & h1 & E & G1 & X1 & C1 & -> & P & Q & Y).
  unfold ybind, yh, yput, yret, yfail. rewrite E. cbn [fst snd] in *.
  destruct ok.
  - split; [exact G1|]. split; [exact X1|]. split; [|split; [(split; [exact P|split; [exact W2|split; [exact W3|cbn [with_tokens y_tokens]; rewrite Q; apply Forall_insert; assumption]]])|]].
    + assert (Z : forall b, cnt (flat_map token_blocks (a_els q)) b = cnt (flat_map token_blocks (a_els (y_tokens y))) b).
      { intros b. rewrite Q, (cnt_insert token_blocks), B. reflexivity. }
      clear - C1 Z. yb. cn.
    + exists tt. split; [|trivial]. unfold set_tokens, y_at. yb. cbn [s_cur s_enc s_started s_ended s_error s_flow s_tokens s_parsed s_avail s_indents s_indent s_allowed s_keys s_nest].
      fold k. rewrite ?map_length, ?I, Q, map_insert, (tokens_ext h h1 _ G X1 H2), T. reflexivity.
  - subst q. split; [exact G1|]. split; [exact X1|]. split; [clear - C1; yb; cn|]. split; [split; [exact P|auto]|]. intros g. discriminate (Y g).
Qed.
Lemma ysim_push_indent i : ysim0 (y_try (y_push_indent i)) (modify (fun s => set_indents s (s_indent s) (i :: s_indents s))).
Proof.
  intros y h G H W _ _. unfold y_try, y_push_indent, ybind, yget, yh, yput, yret, yfail.
  assert (H1 : holds h (ptr_blocks (a_at (y_indents y)))) by (clear - H; yb; cn).
  assert (H2 : holds h (flat_map token_blocks (a_els (y_tokens y)))) by (clear - H; yb; cn).
  destruct W as (W1 & W2 & W3 & W4).
  destruct (push_within (y_indents y) i h G W2 H1) as ([q ok] & g & h1 & E & G1 & X1 & C1 & -> & P & Q & Y). rewrite E. cbn [fst snd] in *.
  destruct ok.
  - split; [exact G1|]. split; [exact X1|]. split; [clear - C1; yb; cn|]. split; [split; [exact W1|split; [exact P|auto]]|].
    exists tt. split; [|trivial]. unfold modify, set_indents, y_at. yb. cbn [s_cur s_enc s_started s_ended s_error s_flow s_tokens s_parsed s_avail s_indents s_indent s_allowed s_keys s_nest].
    rewrite Q, rev_app_distr, (tokens_ext h h1 _ G X1 H2). reflexivity.
  - subst q. split; [exact G1|]. split; [exact X1|]. split; [clear - C1; yb; cn|]. split; [split; [exact W1|split; [exact P|auto]]|]. intros g. discriminate (Y g).
Qed.
Lemma ysim_push_key k : ysim0 (y_try (y_push_key k)) (modify (fun s => set_keys s (k :: s_keys s))).
Proof.
  intros y h G H W _ _. unfold y_try, y_push_key, ybind, yget, yh, yput, yret, yfail.
  assert (H1 : holds h (ptr_blocks (a_at (y_keys y)))) by (clear - H; yb; cn).
  assert (H2 : holds h (flat_map token_blocks (a_els (y_tokens y)))) by (clear - H; yb; cn).
  destruct W as (W1 & W2 & W3 & W4).
  destruct (push_within (y_keys y) k h G W3 H1) as ([q ok] & g & h1 & E & G1 & X1 & C1 & -> & P & Q & Y). rewrite E. cbn [fst snd] in *.
  destruct ok.
  - split; [exact G1|]. split; [exact X1|]. split; [clear - C1; yb; cn|]. split; [split; [exact W1|split; [exact W2|split; [exact P|auto]]]|].
    exists tt. split; [|trivial]. unfold modify, set_keys, y_at. yb. cbn [s_cur s_enc s_started s_ended s_error s_flow s_tokens s_parsed s_avail s_indents s_indent s_allowed s_keys s_nest].
    rewrite Q, rev_app_distr, (tokens_ext h h1 _ G X1 H2). reflexivity.
  - subst q. split; [exact G1|]. split; [exact X1|]. split; [clear - C1; yb; cn|]. split; [split; [exact W1|split; [exact W2|split; [exact P|auto]]]|]. intros g. discriminate (Y g).
Qed.

(* ---- simple keys ---- *)
Lemma touch_keys y h : holds h (y_blocks y) -> ywf y -> h_touch (a_at (y_keys y)) h = HOk tt h.
Proof. intros H W. apply h_touch_ok; [apply W|]. clear - H. yb. cn. Qed.
Lemma room_set {A} (a : arr A) l : room a -> length l = length (a_els a) -> room (set_els a l).
Proof. intros (P & F & C) L. unfold room, fits, set_els in *. cbn [a_at a_els a_off a_cap]. rewrite L. auto. Qed.
Definition pure_top : sm skey := fun s => match s_keys s with [] => SBad | k :: _ => SOk k s end.
Lemma ysim_top : ysim y_top pure_top eq.
Proof.
  intros y h G H W NB NF. unfold pure_top, y_top, ybind, yget, yh, yret in *. cbn [y_at s_keys] in *.
  destruct (rev (a_els (y_keys y))) as [|k r] eqn:E; [congruence|]. rewrite (touch_keys y h H W).
  split; [exact G|]. split; [apply ext_refl|]. split; [apply changes_same|]. split; [exact W|]. exists k. auto.
Qed.
Definition pure_set_top (k : skey) : sm unit := fun s => match s_keys s with [] => SBad | _ :: r => SOk tt (set_keys s (k :: r)) end.
Lemma ysim_set_top k : ysim0 (y_set_top k) (pure_set_top k).
Proof.
  intros y h G H W NB NF. unfold pure_set_top, y_set_top, ybind, yget, yh, yput in *. cbn [y_at s_keys] in *.
  destruct (rev (a_els (y_keys y))) as [|k0 r] eqn:E; [congruence|]. rewrite (touch_keys y h H W).
  split; [exact G|]. split; [apply ext_refl|]. split; [clear; yb; intros b; lia|]. split.
  - destruct W as (W1 & W2 & W3 & W4). split; [exact W1|]. split; [exact W2|]. split; [|exact W4]. unfold with_keys. cbn [y_keys]. apply room_set; [exact W3|].
    rewrite rev_length, <- (rev_length (a_els (y_keys y))), E. reflexivity.
  - exists tt. split; [|trivial]. unfold set_keys, y_at. yb. cbn [s_cur s_enc s_started s_ended s_error s_flow s_tokens s_parsed s_avail s_indents s_indent s_allowed s_keys s_nest].
    rewrite rev_involutive. reflexivity.
Qed.
Lemma ysim_remove_key : ysim0 y_remove_key remove_simple_key.
Proof.
  eapply (ysim_pure _ _ (sbind pure_top (fun k => if k_possible k && k_required k then serror (Some (k_mark k)) SNoColon else pure_set_top (unset k)))).
  - intros s. unfold remove_simple_key, sbind, pure_top, pure_set_top, serror. destruct (s_keys s) as [|k r] eqn:E; [reflexivity|]. destruct (_ && _); [reflexivity|]. rewrite E. reflexivity.
  - eapply ysim_bind; [apply ysim_top|]. intros k k' <-. destruct (_ && _); [apply ysim_error|apply ysim_set_top].
Qed.
Lemma stale_length m l l' : stale m l = inl l' -> length l' = length l.
Proof.
  revert l'. induction l as [|k l IH]; intros l' E; cbn [stale] in E; [injection E as <-; reflexivity|].
  destruct (stale m l) as [ks|e]; [|discriminate E]. specialize (IH ks eq_refl).
  destruct (_ && _); [destruct (k_required k); [discriminate E|]|]; injection E as <-; cbn [length]; lia.
Qed.
Lemma keys_touch y h : holds h (y_blocks y) -> ywf y -> y_keys_touch y h = YOk tt y h.
Proof.
  intros H W. unfold y_keys_touch, ybind, yget, yh, yret. destruct (a_els (y_keys y)); [reflexivity|]. rewrite (touch_keys y h H W). reflexivity.
Qed.
Lemma ysim_stale : ysim0 y_stale stale_simple_keys.
Proof.
  intros y h G H W NB NF. unfold y_stale, ybind. rewrite (keys_touch y h H W). unfold yget, stale_simple_keys in *. unfold smark, y_at in *. cbn [s_keys s_cur] in *.
  change (c_mark (s_cur (y_sc y))) with (ymark y) in *.
  destruct (stale (ymark y) (rev (a_els (y_keys y)))) as [ks|m] eqn:E.
  - unfold yput. split; [exact G|]. split; [apply ext_refl|]. split; [clear; yb; intros b; lia|]. split.
    + destruct W as (W1 & W2 & W3 & W4). split; [exact W1|]. split; [exact W2|]. split; [|exact W4]. unfold with_keys. cbn [y_keys]. apply room_set; [exact W3|].
      rewrite rev_length, (stale_length _ _ _ E), rev_length. reflexivity.
    + exists tt. split; [|trivial]. unfold set_keys. yb. cbn [s_cur s_enc s_started s_ended s_error s_flow s_tokens s_parsed s_avail s_indents s_indent s_allowed s_keys s_nest].
      rewrite rev_involutive. reflexivity.
  - unfold yerror. split; [exact G|]. split; [apply ext_refl|]. split; [apply changes_same|]. split; [exact W|]. reflexivity.
Qed.
Lemma nlen_map {A B} (f : A -> B) l : nlen (map f l) = nlen l.
Proof. unfold nlen. rewrite map_length. reflexivity. Qed.
Lemma ysim_save_key : ysim0 y_save_key save_simple_key.
Proof.
  unfold y_save_key, save_simple_key. apply ysim_here. intros y s (h0 & ->). unfold y_at at 2 3 4 5 6. cbn [s_indent s_allowed s_parsed s_tokens].
  change (smark (y_at h0 y)) with (ymark y). change (in_flow (y_at h0 y)) with (y_flow y). change (s_allowed (y_at h0 y)) with (s_allowed (y_sc y)).
  change (s_parsed (y_at h0 y)) with (s_parsed (y_sc y)). change (s_tokens (y_at h0 y)) with (map (token_at h0) (a_els (y_tokens y))). rewrite nlen_map.
  destruct (s_allowed (y_sc y)); [|apply ysim_ret; trivial]. cbv zeta. set (k := mkKey _ _ _ _). clearbody k.
  eapply (ysim_pure _ _ (sbind remove_simple_key (fun _ => pure_set_top k))).
  - intros s. unfold sbind, remove_simple_key, pure_set_top, modify. destruct (s_keys s) as [|k0 r]; [reflexivity|]. destruct (_ && _); reflexivity.
  - eapply ysim_bind; [apply ysim_remove_key|]. intros _ _ _. apply ysim_set_top.
Qed.
Lemma ysim_set_indent i : ysim0 (y_set_indent i) (modify (fun s => set_indents s i (s_indents s))).
Proof.
  intros y h G H W _ _. split; [exact G|]. split; [apply ext_refl|]. split; [apply changes_same|]. split; [exact W|]. exists tt. split; reflexivity.
Qed.
Lemma ysim_increase : ysim0 y_increase increase_flow_level.
Proof.
  eapply (ysim_pure _ _ (sbind (modify (fun s => set_keys s (key0 :: s_keys s))) (fun _ => sbind ScannerModel.get (fun s =>
     if s_flow s =? INT_MAX then serror None SLimit else modify (fun s => set_flow s (s_flow s + 1)))))).
  - intros s. unfold increase_flow_level, sbind, ScannerModel.get, modify, serror. cbn [s_flow set_keys]. destruct (_ =? _); reflexivity.
  - unfold y_increase. eapply ysim_bind; [apply ysim_push_key|]. intros _ _ _. apply ysim_here. intros y s (h0 & ->). cbn [y_at s_flow].
    destruct (_ =? _); [apply ysim_error|]. apply ysim_mod. reflexivity.
Qed.
Lemma pop_does {A} (a : arr A) x r h : rev (a_els a) = x :: r -> a_at a <> None -> holds h (ptr_blocks (a_at a)) ->
  h_pop a h = HOk (x, set_els a (rev r)) h.
Proof. intros E P H. unfold h_pop, hbind. rewrite E, h_touch_ok by assumption. reflexivity. Qed.
Lemma room_less {A} (a : arr A) l : room a -> (length l <= length (a_els a))%nat -> room (set_els a l).
Proof. intros (P & F & C) L. unfold room, fits, set_els in *. cbn [a_at a_els a_off a_cap]. apply Nat.leb_le in F. split; [exact P|]. split; [apply Nat.leb_le; lia|exact C]. Qed.
Lemma rev_less {A} (l : list A) x r : rev l = x :: r -> (length (rev r) <= length l)%nat.
Proof. intros E. rewrite rev_length, <- (rev_length l), E. cbn [length]. lia. Qed.
Lemma ysim_decrease : ysim0 y_decrease decrease_flow_level.
Proof.
  intros y h G H W NB NF. unfold decrease_flow_level, y_decrease in *. unfold ybind at 1, yget. unfold y_at in *. cbn [s_flow s_keys] in *.
  destruct (s_flow (y_sc y) =? 0).
  - split; [exact G|]. split; [apply ext_refl|]. split; [apply changes_same|]. split; [exact W|]. exists tt. auto.
  - unfold ybind, ymod, yh, yget, yput. destruct (rev (a_els (y_keys y))) as [|k r] eqn:E; [congruence|].
    rewrite (pop_does _ k r h E); [|apply W|clear - H; yb; cn]. cbn [snd]. split; [exact G|]. split; [apply ext_refl|]. split; [clear; yb; intros b; lia|]. split.
    + destruct W as (W1 & W2 & W3 & W4). split; [exact W1|]. split; [exact W2|]. split; [|exact W4]. unfold with_keys. cbn [y_keys]. apply room_less; [exact W3|]. eapply rev_less, E.
    + exists tt. split; [|trivial]. unfold set_keys, set_flow. yb. cbn [s_cur s_enc s_started s_ended s_error s_flow s_tokens s_parsed s_avail s_indents s_indent s_allowed s_keys s_nest].
      rewrite rev_involutive. reflexivity.
Qed.
Definition pure_roll (column : N) (number : option N) (t : tok) (m : mark) : sm unit :=
  sbind ScannerModel.get (fun s =>
  if in_flow s then sret tt else
  if (s_indent s <? Z.of_N column)%Z then
    sbind (let i := s_indent s in modify (fun s => set_indents s (s_indent s) (i :: s_indents s))) (fun _ =>
     if INT_MAX <? column then serror None SLimit else sbind (modify (fun s => set_indents s (Z.of_N column) (s_indents s))) (fun _ =>
       match number with None => enqueue (mkToken t m m false) | Some n => queue_insert n (mkToken t m m false) end))
  else sret tt).
Lemma roll_pure column number t m s : roll_indent column number t m s = pure_roll column number t m s.
Proof.
  unfold roll_indent, pure_roll, sbind, ScannerModel.get, modify, serror. destruct (in_flow s); [reflexivity|].
  destruct (_ <? _)%Z; [|reflexivity]. destruct (_ <? _); reflexivity.
Qed.
Lemma ysim_roll column number t t' m : tok_blocks t = [] -> sound_tok t -> (forall h, tok_at h t = t') -> ysim0 (y_roll column number t m) (roll_indent column number t' m).
Proof.
  intros B St T. eapply ysim_pure; [apply roll_pure|]. unfold y_roll, pure_roll. apply ysim_here. intros y s (h0 & ->). change (in_flow (y_at h0 y)) with (y_flow y).
  change (s_indent (y_at h0 y)) with (s_indent (y_sc y)). destruct (y_flow y); [apply ysim_ret; trivial|]. cbv zeta. generalize (s_indent (y_sc y)). intros i.
  destruct (i <? Z.of_N column)%Z; [|apply ysim_ret; trivial].
  eapply ysim_bind; [apply ysim_push_indent|]. intros _ _ _. destruct (INT_MAX <? column); [apply ysim_error|].
  eapply ysim_bind; [apply ysim_set_indent|]. intros _ _ _. destruct number as [n|].
  - apply ysim_insert; [exact B|exact St|]. intros h. unfold token_at. cbn [ht_tok ht_start ht_end ht_deep]. rewrite T. reflexivity.
  - apply ysim_token; assumption.
Qed.
Definition pure_unroll (column : Z) : sm unit := fun s =>
  match unroll (smark s) column (s_indent s) (s_indents s) (s_tokens s) with
  | None => SBad
  | Some (i, is, q) => SOk tt (set_tokens (set_indents s i is) q)
  end.
Lemma unroll_step n column : 
  (forall y h, (length (a_els (y_indents y)) < n)%nat -> good h -> holds h (y_blocks y) -> ywf y -> pure_unroll column (y_at h y) <> SBad ->
   match y_unroll_n n column y h with
   | YOk a y' h' => good h' /\ ext h h' /\ changes h (y_blocks y) (y_blocks y') h' /\ ywf y' /\ pure_unroll column (y_at h y) = SOk a (y_at h' y')
   | YErr e y' h' => good h' /\ ext h h' /\ changes h (y_blocks y) (y_blocks y') h' /\ ywf y' /\
       match e with XScan _ => False | _ => ~ generous h end
   | _ => False
   end).
Proof.
  induction n as [|n IH]; intros y h L G H W NB; [lia|]. cbn [y_unroll_n]. unfold ybind at 1. unfold yget.
  destruct (column <? s_indent (y_sc y))%Z eqn:E.
  2:{ split; [exact G|]. split; [apply ext_refl|]. split; [apply changes_same|]. split; [exact W|]. unfold pure_unroll.
      change (s_indent (y_at h y)) with (s_indent (y_sc y)). change (s_tokens (y_at h y)) with (map (token_at h) (a_els (y_tokens y))).
      destruct (s_indents (y_at h y)) eqn:I; cbn [unroll]; rewrite E; rewrite <- I; reflexivity. }
  pose proof (ysim_token HTBlockEnd (ymark y) (ymark y) TBlockEnd eq_refl Logic.I (fun _ => eq_refl) y h G H W) as K.
  unfold ybind at 1. unfold enqueue in K at 1 2. specialize (K ltac:(discriminate) ltac:(discriminate)).
  destruct (y_token HTBlockEnd (ymark y) (ymark y) y h) as [u y1 h1|e y1 h1| |]; [| |exact K|exact K].
  2:{ destruct K as (G1 & X1 & C1 & W1 & K). split; [exact G1|]. split; [exact X1|]. split; [exact C1|]. split; [exact W1|]. destruct e; [discriminate K|exact K|exact K]. }
  destruct K as (G1 & X1 & C1 & W1 & b & K & _). pose proof (changes_holds _ _ _ _ C1 H) as H1.
  assert (K' : set_tokens (y_at h y) (s_tokens (y_at h y) ++ [mkToken TBlockEnd (ymark y) (ymark y) false]) = y_at h1 y1) by (apply (f_equal (fun r => match r with SOk _ s => s | _ => y_at h y end)) in K; exact K).
  clear K. unfold pure_unroll in NB.
  destruct (s_indents (y_at h y)) as [|i r] eqn:I.
  { exfalso. apply NB. cbn [unroll]. change (s_indent (y_at h y)) with (s_indent (y_sc y)). rewrite E. reflexivity. }
  assert (I1 : rev (a_els (y_indents y1)) = i :: r) by (change (s_indents (y_at h1 y1) = i :: r); rewrite <- K'; exact I).
  unfold ybind at 1. unfold ybind at 1. unfold yh.
  rewrite (pop_does _ i r h1 I1); [|apply W1|clear - H1; yb; cn]. cbn [fst snd].
  unfold ybind at 1. unfold yput. unfold ybind at 1. unfold y_set_indent, ymod.
  set (y2 := with_sc _ _). 
  assert (A2 : y_at h1 y2 = set_indents (set_tokens (y_at h y) (s_tokens (y_at h y) ++ [mkToken TBlockEnd (ymark y) (ymark y) false])) i r).
  { rewrite K'. unfold y2, y_at, set_indents. yb. cbn [s_cur s_enc s_started s_ended s_error s_flow s_tokens s_parsed s_avail s_indents s_indent s_allowed s_keys s_nest].
    rewrite rev_involutive. reflexivity. }
  assert (B2 : y_blocks y2 = y_blocks y1) by reflexivity.
  assert (W2 : ywf y2).
  { destruct W1 as (Wa & Wb & Wc & Wd). split; [exact Wa|]. split; [|split; [exact Wc|exact Wd]]. apply room_less; [exact Wb|]. eapply rev_less, I1. }
  assert (L2 : (length (a_els (y_indents y2)) < n)%nat).
  { unfold y2. yb. rewrite rev_length. change (rev (a_els (y_indents y)) = i :: r) in I. apply (f_equal (@length Z)) in I. rewrite rev_length in I. cbn [length] in I. lia. }
  assert (U : pure_unroll column (y_at h y) = pure_unroll column (y_at h1 y2)).
  { unfold pure_unroll. rewrite A2, I. cbn [unroll]. change (s_indent (y_at h y)) with (s_indent (y_sc y)). rewrite E. reflexivity. }
  clearbody y2.
  specialize (IH y2 h1 L2 G1). rewrite B2 in IH. specialize (IH H1 W2). rewrite <- U in IH.
  specialize (IH ltac:(unfold pure_unroll; rewrite I; exact NB)).
  destruct (y_unroll_n n column y2 h1) as [u2 y3 h3|e y3 h3| |]; [| |exact IH|exact IH].
  - destruct IH as (G3 & X3 & C3 & W3 & E3). split; [exact G3|]. split; [eapply ext_trans; eassumption|]. split; [eapply changes_compose; eassumption|]. split; [exact W3|exact E3].
  - destruct IH as (G3 & X3 & C3 & W3 & E3). split; [exact G3|]. split; [eapply ext_trans; eassumption|]. split; [eapply changes_compose; eassumption|]. split; [exact W3|].
    destruct e; [exact E3| |]; intros g; apply E3, X1, g.
Qed.
Lemma ysim_unroll column : ysim0 (y_unroll column) (unroll_indent column).
Proof.
  intros y h G H W NB NF. unfold y_unroll, ybind, yget. unfold unroll_indent in *. change (in_flow (y_at h y)) with (y_flow y) in *. destruct (y_flow y).
  - split; [exact G|]. split; [apply ext_refl|]. split; [apply changes_same|]. split; [exact W|]. exists tt. auto.
  - pose proof (unroll_step (S (length (a_els (y_indents y)))) column y h (Nat.lt_succ_diag_r _) G H W NB) as K.
    destruct (y_unroll_n _ column y h) as [u y1 h1|e y1 h1| |]; [| |exact K|exact K].
    + destruct K as (G1 & X1 & C1 & W1 & E). split; [exact G1|]. split; [exact X1|]. split; [exact C1|]. split; [exact W1|]. exists u. auto.
    + destruct K as (G1 & X1 & C1 & W1 & E). split; [exact G1|]. split; [exact X1|]. split; [exact C1|]. split; [exact W1|]. destruct e; [destruct E|exact E|exact E].
Qed.

(* ---- tokens with strings ---- *)
Definition y_append (t : htoken) : ym unit :=
  ok <% y_enqueue t ;; if ok : bool then yret tt else yh (token_delete (ht_tok t)) %; yfail XMemory.
Lemma append_does t y h : good h -> holds h (token_blocks t ++ y_blocks y) -> sound_tok (ht_tok t) -> ywf y ->
  match y_append t y h with
  | YOk _ y' h' => good h' /\ ext h h' /\ changes h (token_blocks t ++ y_blocks y) (y_blocks y') h' /\ ywf y' /\
      y_at h' y' = set_tokens (y_at h y) (s_tokens (y_at h y) ++ [token_at h t])
  | YErr e y' h' => good h' /\ ext h h' /\ changes h (token_blocks t ++ y_blocks y) (y_blocks y') h' /\ ywf y' /\ e = XMemory /\ ~ generous h
  | _ => False
  end.
Proof.
  intros G H St W. unfold y_append, y_enqueue, ybind, yget, yh, yput, yret, yfail.
  assert (H0 : holds h (token_blocks t)) by (clear - H; cn).
  assert (H1 : holds h (ptr_blocks (a_at (y_tokens y)))) by (clear - H; yb; cn).
  assert (H2 : holds h (flat_map token_blocks (a_els (y_tokens y)))) by (clear - H; yb; cn).
  destruct W as (W1 & W2 & W3 & W4).
  destruct (push_within (y_tokens y) t h G W1 H1) as ([q ok] & g & h1 & E & G1 & X1 & C1 & -> & P & Q & Y). rewrite E. cbn [fst snd] in *.
  destruct ok.
  - split; [exact G1|]. split; [exact X1|]. split; [|split; [(split; [exact P|split; [exact W2|split; [exact W3|cbn [with_tokens y_tokens]; rewrite Q; apply Forall_app; auto]]])|]].
    + clear - C1 Q. yb. rewrite Q, flat_map_app. cbn [flat_map]. cn.
    + unfold set_tokens, y_at. yb. cbn [s_cur s_enc s_started s_ended s_error s_flow s_tokens s_parsed s_avail s_indents s_indent s_allowed s_keys s_nest].
      rewrite Q, map_app, (tokens_ext h h1 _ G X1 H2). cbn [map]. rewrite (token_ext h h1 t G X1 H0). reflexivity.
  - subst q. assert (D : holds h1 (token_blocks t)) by (clear - H C1; yb; cn).
    destruct (token_delete_does (ht_tok t) h1 G1 D) as (u & g & h2 & E2 & G2 & X2 & C2 & ->). rewrite E2.
    split; [exact G2|]. split; [eapply ext_trans; eassumption|]. split; [clear - C1 C2; unfold token_blocks in *; yb; cn|]. split; [split; [exact P|auto]|]. split; [reflexivity|]. intros g. discriminate (Y g).
Qed.
Lemma ysim_lexed {A B} (m : xm A) (p : cm B) (tk : A -> htoken) (tk' : B -> token) (fl : A -> bool) (fl' : B -> bool) :
  (forall env c f, sim (fun r => token_blocks (tk r)) env m c f (p c) (fun r r' f' h => f' = f /\ token_is h (tk r) (tk' r') /\ fl r = fl' r')) ->
  ysim0 (r <% ylex m ;; (if fl r then y_allow true else yret tt) %; y_append (tk r))
    (sbind (lift p) (fun r => sbind (if fl' r then allow true else sret tt) (fun _ => enqueue (tk' r)))).
Proof.
  intros M y h G H W NB NF. unfold sbind at 1 in NB. unfold sbind at 1 in NF. unfold lift at 1 in NB. unfold lift at 1 in NF.
  change (s_cur (y_at h y)) with (s_cur (y_sc y)) in *.
  specialize (M (mkEnv (y_blocks y) []) (s_cur (y_sc y)) null_frame h G).
  assert (H0 : holds h (e_blocks (mkEnv (y_blocks y) []) ++ frame_blocks null_frame)) by (change (frame_blocks null_frame) with (@nil nat); rewrite app_nil_r; exact H).
  assert (S0 : sound null_frame) by (repeat split; left; reflexivity).
  specialize (M H0 S0). unfold ybind at 1. unfold ylex.
  assert (NB' : p (s_cur (y_sc y)) <> CBad) by (intros E; rewrite E in NB; apply NB; reflexivity).
  assert (NF' : p (s_cur (y_sc y)) <> CFuel) by (intros E; rewrite E in NF; apply NF; reflexivity). specialize (M NB' NF').
  assert (H2 : holds h (flat_map token_blocks (a_els (y_tokens y)))) by (clear - H; yb; cn).
  destruct (m (s_cur (y_sc y)) null_frame h) as [r c1 f1 h1|e f1 h1| |]; [| |exact M|exact M].
  - destruct M as (G1 & X1 & C1 & _ & _ & r' & E & -> & (T & St) & Fl).
    change (frame_blocks null_frame) with (@nil nat) in C1. rewrite app_nil_r in C1.
    set (y1 := with_sc y (set_cur (y_sc y) c1)).
    assert (Z : exists y2, (if fl r then y_allow true else yret tt) y1 h1 = YOk tt y2 h1 /\ y_blocks y2 = y_blocks y /\ ywf y2 /\ y_tokens y2 = y_tokens y /\
                 (if fl' r' then allow true else sret tt) (set_cur (y_at h y) c1) = SOk tt (y_at h y2)).
    { rewrite Fl. destruct (fl' r'); eexists; (split; [reflexivity|]); (split; [reflexivity|]); (split; [exact W|]); split; reflexivity. }
    destruct Z as (y2 & E2 & B2 & W2 & T2 & P2). unfold ybind at 1. rewrite E2.
    assert (HH : holds h1 (token_blocks (tk r) ++ y_blocks y2)) by (rewrite B2; clear - C1 H; cn).
    pose proof (append_does (tk r) y2 h1 G1 HH St W2) as K. rewrite B2 in K.
    assert (PE : (sbind (lift p) (fun r => sbind (if fl' r then allow true else sret tt) (fun _ => enqueue (tk' r)))) (y_at h y) =
                 SOk tt (set_tokens (y_at h y2) (s_tokens (y_at h y2) ++ [tk' r']))).
    { unfold sbind, lift. change (s_cur (y_at h y)) with (s_cur (y_sc y)). rewrite E, P2. reflexivity. }
    destruct (y_append (tk r) y2 h1) as [u y3 h3|e y3 h3| |]; [| |exact K|exact K].
    + destruct K as (G3 & X3 & C3 & W3 & A3). split; [exact G3|]. split; [eapply ext_trans; eassumption|]. split; [clear - C1 C3; cn|]. split; [exact W3|].
      exists tt. split; [|trivial]. rewrite PE, A3, T. rewrite (y_at_ext h h1 y2 G X1) by (rewrite T2; exact H2). reflexivity.
    + destruct K as (G3 & X3 & C3 & W3 & -> & N). split; [exact G3|]. split; [eapply ext_trans; eassumption|]. split; [clear - C1 C3; cn|]. split; [exact W3|].
      intros g. apply N, X1, g.
  - destruct M as (G1 & X1 & C1 & K & E). assert (F1 : frame_blocks f1 = []).
    { unfold keeps in K. cbn [e_slots In] in K. pose proof (K V0) as K0. pose proof (K V1) as K1. pose proof (K V2) as K2. pose proof (K V3) as K3. cbn [HeapLexModel.get] in *.
      unfold frame_blocks. rewrite K0, K1, K2, K3 by tauto. reflexivity. }
    rewrite F1 in C1. change (frame_blocks null_frame) with (@nil nat) in C1.
    split; [exact G1|]. split; [exact X1|]. split; [clear - C1; cn|]. split; [exact W|].
    destruct e; [|exact E|exact E]. unfold sbind, lift. change (s_cur (y_at h y)) with (s_cur (y_sc y)). rewrite E. reflexivity.
Qed.
Lemma ysim_scanned m p : (forall env c f, sim token_blocks env m c f (p c) (fun t b f' h => f' = f /\ token_is h t b)) ->
  ysim0 (y_scanned m) (sbind (lift p) enqueue).
Proof.
  intros M. pose proof (ysim_lexed m p (fun t => t) (fun t => t) (fun _ => false) (fun _ => false)) as K.
  apply K. intros env c f. eapply sim_weaken; [apply M|]. cbn beta. intros a b f' h (-> & T). auto.
Qed.

(* ---- the fetchers ---- *)
Lemma ysim_then {A B A' B'} (m : ym A) (k : ym A') (p : sm B) (q : sm B') R : ysim0 m p -> ysim k q R -> ysim (m %; k) (sbind p (fun _ => q)) R.
Proof. intros M K. eapply ysim_bind; [exact M|]. intros _ _ _. exact K. Qed.
Lemma ysim_stream_start : ysim0 y_stream_start fetch_stream_start.
Proof.
  eapply (ysim_pure _ _ (sbind (modify (fun s => set_indents s (-1)%Z (s_indents s))) (fun _ => sbind (modify (fun s => set_keys s (key0 :: s_keys s))) (fun _ =>
    sbind (allow true) (fun _ => sbind (modify (fun s => set_started s true)) (fun _ => sbind ScannerModel.get (fun s =>
      enqueue (mkToken (TStreamStart (s_enc s)) (smark s) (smark s) false)))))))).
  - intros s. reflexivity.
  - unfold y_stream_start. apply ysim_then; [apply ysim_set_indent|]. apply ysim_then; [apply ysim_push_key|]. apply ysim_then; [apply ysim_allow|].
    apply ysim_then; [apply ysim_mod; reflexivity|]. apply ysim_here. intros y s (h0 & ->). apply ysim_token; (reflexivity || exact I).
Qed.
Lemma ysim_reset : ysim0 y_reset reset_block.
Proof. apply ysim_then; [apply ysim_unroll|]. apply ysim_then; [apply ysim_remove_key|apply ysim_allow]. Qed.
Lemma ysim_iot {A} (m : cm A) : ysim0 (yio m) (lift m).
Proof. eapply ysim_weaken; [apply ysim_io|trivial]. Qed.
Lemma ysim_stream_end : ysim0 y_stream_end fetch_stream_end.
Proof.
  apply ysim_then; [apply ysim_iot|]. apply ysim_then; [apply ysim_reset|]. apply ysim_here. intros y s (h0 & ->). apply ysim_token; (reflexivity || exact I).
Qed.
Lemma ysim_chars n t t' : tok_blocks t = [] -> sound_tok t -> (forall h, tok_at h t = t') -> ysim0 (y_chars n t) (fetch_chars n t').
Proof.
  intros B St T. unfold y_chars, fetch_chars. apply ysim_here. intros y s (h0 & ->). apply ysim_then; [apply ysim_iot|]. apply ysim_here. intros y' s' (h1 & ->).
  apply ysim_token; assumption.
Qed.
Lemma ysim_block_start p t t' : tok_blocks t = [] -> sound_tok t -> (forall h, tok_at h t = t') -> ysim0 (y_block_start p t) (block_start p t').
Proof.
  intros B St T. unfold y_block_start, block_start. apply ysim_here. intros y s (h0 & ->). change (in_flow (y_at h0 y)) with (y_flow y).
  change (s_allowed (y_at h0 y)) with (s_allowed (y_sc y)). destruct (y_flow y); [apply ysim_ret; trivial|].
  destruct (negb _); [apply ysim_error|]. apply ysim_roll; assumption.
Qed.
Lemma ysim_key : ysim0 y_key fetch_key.
Proof.
  apply ysim_then; [apply ysim_block_start; (reflexivity || exact I)|]. apply ysim_then; [apply ysim_remove_key|]. apply ysim_here. intros y s (h0 & ->).
  apply ysim_then; [apply ysim_allow|]. apply ysim_chars; (reflexivity || exact I).
Qed.
Definition pure_value : sm unit :=
  sbind ScannerModel.get (fun s => sbind pure_top (fun k =>
  sbind (if k_possible k then
         sbind (queue_insert (k_number k) (mkToken TKey (k_mark k) (k_mark k) false)) (fun _ =>
         sbind (roll_indent (m_column (k_mark k)) (Some (k_number k)) TBlockMapStart (k_mark k)) (fun _ =>
         sbind (pure_set_top (unset k)) (fun _ => allow false)))
       else
         sbind (block_start SMapValue TBlockMapStart) (fun _ => allow (negb (in_flow s)))) (fun _ => fetch_chars 1 TValue))).
Lemma roll_keys column number t m s s' : roll_indent column number t m s = SOk tt s' -> s_keys s' = s_keys s.
Proof.
  unfold roll_indent, sbind, ScannerModel.get, modify, serror, enqueue, queue_insert, sret. destruct (in_flow s); [intros [= <-]; reflexivity|].
  destruct (_ <? _)%Z; [|intros [= <-]; reflexivity]. destruct (INT_MAX <? column); [discriminate|]. destruct number.
  - destruct (_ && _); [|discriminate]. intros [= <-]. reflexivity.
  - unfold modify. intros [= <-]. reflexivity.
Qed.
Lemma value_pure s : fetch_value s = pure_value s.
Proof.
  unfold fetch_value, pure_value, sbind, ScannerModel.get, pure_top. destruct (s_keys s) as [|k ks] eqn:K; [reflexivity|]. destruct (k_possible k); [|reflexivity].
  destruct (queue_insert _ _ s) as [u s1| | |] eqn:Q; try reflexivity.
  assert (K1 : s_keys s1 = k :: ks).
  { unfold queue_insert in Q. destruct (_ && _); [|discriminate Q]. injection Q as _ <-. exact K. }
  destruct (roll_indent _ _ _ _ s1) as [[] s2| | |] eqn:R; try reflexivity.
  apply roll_keys in R. unfold modify, pure_set_top. rewrite R, K1. reflexivity.
Qed.
Lemma ysim_value : ysim0 y_value fetch_value.
Proof.
  eapply ysim_pure; [exact value_pure|]. unfold y_value, pure_value. apply ysim_here. intros y s (h0 & ->). eapply ysim_bind; [apply ysim_top|]. intros k k' <-.
  apply ysim_then; [|apply ysim_chars; (reflexivity || exact I)]. destruct (k_possible k).
  - apply ysim_then; [apply ysim_insert; (reflexivity || exact I)|]. apply ysim_then; [apply ysim_roll; (reflexivity || exact I)|]. apply ysim_then; [apply ysim_set_top|apply ysim_allow].
  - apply ysim_then; [apply ysim_block_start; (reflexivity || exact I)|apply ysim_allow].
Qed.
Lemma ysim_plain : ysim0 y_plain_scalar fetch_plain_scalar.
Proof.
  apply ysim_then; [apply ysim_save_key|]. apply ysim_then; [apply ysim_allow|]. apply ysim_here. intros y s (h0 & ->).
  apply (ysim_lexed (x_plain_scalar (y_flow y) (s_indent (y_sc y))) (scan_plain_scalar (y_flow y) (s_indent (y_sc y))) fst fst snd snd).
  intros env c f. apply run_plain_scalar.
Qed.
Lemma ysim_branch b : ysim0 (y_branch b) (fetch_branch b).
Proof.
  destruct b; cbn [y_branch fetch_branch].
  - apply ysim_stream_end.
  - apply ysim_then; [apply ysim_reset|]. apply ysim_scanned. intros. apply run_directive.
  - apply ysim_then; [apply ysim_reset|]. apply ysim_chars; (reflexivity || exact I).
  - apply ysim_then; [apply ysim_reset|]. apply ysim_chars; (reflexivity || exact I).
  - apply ysim_then; [apply ysim_save_key|]. apply ysim_then; [apply ysim_increase|]. apply ysim_then; [apply ysim_allow|]. apply ysim_chars; (reflexivity || exact I).
  - apply ysim_then; [apply ysim_save_key|]. apply ysim_then; [apply ysim_increase|]. apply ysim_then; [apply ysim_allow|]. apply ysim_chars; (reflexivity || exact I).
  - apply ysim_then; [apply ysim_remove_key|]. apply ysim_then; [apply ysim_decrease|]. apply ysim_then; [apply ysim_allow|]. apply ysim_chars; (reflexivity || exact I).
  - apply ysim_then; [apply ysim_remove_key|]. apply ysim_then; [apply ysim_decrease|]. apply ysim_then; [apply ysim_allow|]. apply ysim_chars; (reflexivity || exact I).
  - apply ysim_then; [apply ysim_remove_key|]. apply ysim_then; [apply ysim_allow|]. apply ysim_chars; (reflexivity || exact I).
  - apply ysim_then; [apply ysim_block_start; (reflexivity || exact I)|]. apply ysim_then; [apply ysim_remove_key|]. apply ysim_then; [apply ysim_allow|]. apply ysim_chars; (reflexivity || exact I).
  - apply ysim_key.
  - apply ysim_value.
  - apply ysim_then; [apply ysim_save_key|]. apply ysim_then; [apply ysim_allow|]. apply ysim_scanned. intros. apply run_anchor.
  - apply ysim_then; [apply ysim_save_key|]. apply ysim_then; [apply ysim_allow|]. apply ysim_scanned. intros. apply run_anchor.
  - apply ysim_then; [apply ysim_save_key|]. apply ysim_then; [apply ysim_allow|]. apply ysim_here. intros y s (h0 & ->). apply ysim_scanned. intros. apply run_tag.
  - apply ysim_then; [apply ysim_remove_key|]. apply ysim_then; [apply ysim_allow|]. apply ysim_here. intros y s (h0 & ->). apply ysim_scanned. intros. apply run_block_scalar.
  - apply ysim_then; [apply ysim_remove_key|]. apply ysim_then; [apply ysim_allow|]. apply ysim_here. intros y s (h0 & ->). apply ysim_scanned. intros. apply run_block_scalar.
  - apply ysim_then; [apply ysim_save_key|]. apply ysim_then; [apply ysim_allow|]. apply ysim_scanned. intros. apply run_flow_scalar.
  - apply ysim_then; [apply ysim_save_key|]. apply ysim_then; [apply ysim_allow|]. apply ysim_scanned. intros. apply run_flow_scalar.
  - apply ysim_plain.
  - intros y h G H W _ _. split; [exact G|]. split; [apply ext_refl|]. split; [apply changes_same|]. split; [exact W|]. reflexivity.
Qed.
Lemma ysim_next : ysim0 y_next fetch_next_token.
Proof.
  apply ysim_then; [apply ysim_iot|]. apply ysim_here. intros y s (h0 & ->). change (s_started (y_at h0 y)) with (s_started (y_sc y)).
  destruct (negb _); [apply ysim_stream_start|]. eapply ysim_bind; [apply ysim_io|]. intros a a' <-. apply ysim_then; [apply ysim_allow|].
  apply ysim_then; [apply ysim_stale|]. apply ysim_here. intros y1 s1 (h1 & ->). apply ysim_then; [apply ysim_unroll|]. apply ysim_then; [apply ysim_iot|].
  eapply ysim_bind; [apply ysim_io|]. intros b b' <-. apply ysim_branch.
Qed.
Definition pure_need : sm bool := fun s =>
  (match s_tokens s with
   | [] => sret true
   | _ => sbind stale_simple_keys (fun _ => sbind ScannerModel.get (fun s => sret (head_may_be_key s)))
   end) s.
Lemma ysim_touch : ysim0 y_keys_touch (sret tt).
Proof. intros y h G H W _ _. rewrite (keys_touch y h H W). split; [exact G|]. split; [apply ext_refl|]. split; [apply changes_same|]. split; [exact W|]. exists tt. auto. Qed.
Lemma ysim_need : ysim y_need pure_need eq.
Proof.
  assert (K : ysim (y_stale %; y_keys_touch %; y <% yget ;;
      yret (existsb (fun k => k_possible k && (k_number k =? s_parsed (y_sc y))) (rev (a_els (y_keys y)))))
      (sbind stale_simple_keys (fun _ => sbind ScannerModel.get (fun s => sret (head_may_be_key s)))) eq).
  { apply ysim_then; [apply ysim_stale|]. eapply (ysim_pure _ _ (sbind (sret tt) (fun _ => sbind ScannerModel.get (fun s => sret (head_may_be_key s))))); [reflexivity|].
    apply ysim_then; [apply ysim_touch|]. apply ysim_here. intros y s (h0 & ->). apply ysim_ret. reflexivity. }
  intros y h G H W NB NF. specialize (K y h G H W). unfold y_need, ybind at 1, yget. unfold pure_need in *. unfold y_at at 3.
  change (s_tokens (y_at h y)) with (map (token_at h) (a_els (y_tokens y))) in *. cbn [s_tokens].
  destruct (a_els (y_tokens y)) as [|t q].
  - cbn [map]. split; [exact G|]. split; [apply ext_refl|]. split; [apply changes_same|]. split; [exact W|]. exists true. auto.
  - cbn [map] in *. exact (K NB NF).
Qed.
Lemma ysim_more_n n : ysim0 (y_more_n n) (fetch_more_n n).
Proof.
  induction n as [|n IH]. { intros y h G H W _ NF. exfalso. apply NF. reflexivity. }
  eapply (ysim_pure _ _ (sbind pure_need (fun need => if need then sbind fetch_next_token (fun _ => fetch_more_n n) else modify (fun s => set_avail s true)))); [reflexivity|].
  cbn [y_more_n]. eapply ysim_bind; [apply ysim_need|]. intros b b' <-. destruct b.
  - apply ysim_then; [apply ysim_next|exact IH].
  - apply ysim_mod. reflexivity.
Qed.
Lemma ysim_more : ysim0 y_more fetch_more_tokens.
Proof.
  intros y h G H W NB NF. unfold fetch_more_tokens in *. unfold y_more, ybind, yget. exact (ysim_more_n _ y h G H W NB NF).
Qed.
