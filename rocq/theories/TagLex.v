(* Anchors, tags and directives are read as they are spelled. *)
From Verif Require Import Base ReaderModel Utf8Spec Utf8Lemmas CharSpec Types CursorModel ScanModel ScannerModel CursorProofs ScanProofs ScanQuoted RoundSpec LexSpec GapExact QuotedExact LexUnique PlainExact BlockExact.

Lemma cstr_is s : cstr s = up_to_nul s.
Proof. induction s as [|x s IH]; cbn; [reflexivity|]. rewrite IH. reflexivity. Qed.
Lemma alpha_ascii x : is_alpha x = true -> is_ascii x = true.
Proof. intros H. cls. Qed.
Lemma uri_class_is wide x : uri_class wide x = true <-> uri_char wide x \/ x = 0x25.
Proof.
  unfold uri_class, uri_char. rewrite !orb_true_iff, andb_true_iff, !existsb_exists. split.
  - intros [[H|(y & H & E)]|(-> & y & H & E)]; [auto| |]; apply N.eqb_eq in E; subst y; cbn [In] in *; intuition.
  - intros [[H|[H|[-> H]]]|H]; [auto| | |].
    + left. right. exists x. split; [cbn [In] in *; intuition|apply N.eqb_refl].
    + right. split; [reflexivity|]. exists x. split; [exact H|apply N.eqb_refl].
    + left. right. exists x. split; [cbn [In]; intuition|apply N.eqb_refl].
Qed.
Lemma not_pct wide : ~ uri_char wide 0x25.
Proof. unfold uri_char. cbn [In]. intros [H|[H|[_ H]]]; [discriminate|intuition; discriminate|intuition; discriminate]. Qed.
Lemma uri_ascii wide x : uri_class wide x = true -> is_ascii x = true.
Proof. intros H. unfold uri_class in H. cbn [existsb] in H. destruct wide; cls. Qed.
Lemma ascii_utf8 x : is_ascii x = true -> utf8_enc x = [x].
Proof. intros H. unfold utf8_enc. unfold is_ascii in H. destruct (N.ltb_spec x 0x80); [reflexivity|lia]. Qed.
Lemma name_utf8 w : name w -> utf8 w = w.
Proof. induction 1 as [|x w H F IH]; [reflexivity|]. change (utf8 (x :: w)) with (utf8_enc x ++ utf8 w). rewrite IH, (ascii_utf8 x (alpha_ascii _ H)). reflexivity. Qed.
Definition byte_bits (o : N) : bool :=
  Bool.eqb (N.land o 0xC0 =? 0x80) ((0x80 <=? o) && (o <? 0xC0)) && (uri_width o =? match following o with Some n => S n | None => O end)%nat.
Lemma bytes_bits : forallb byte_bits (map N.of_nat (seq 0 256)) = true.
Proof. vm_compute. reflexivity. Qed.
Lemma hex_byte a b : is_hex a = true -> is_hex b = true -> as_hex a * 16 + as_hex b < 256.
Proof. intros A B. assert (X : forall x, is_hex x = true -> as_hex x < 16) by (intros x H; unfold as_hex, is_hex, is_digit, in_range in *; repeat match goal with |- context [if ?q then _ else _] => destruct q eqn:? end; lia). pose proof (X _ A). pose proof (X _ B). lia. Qed.
Lemma bits o : o < 256 -> (N.land o 0xC0 =? 0x80) = ((0x80 <=? o) && (o <? 0xC0)) /\ uri_width o = match following o with Some n => S n | None => O end.
Proof.
  intros H. pose proof bytes_bits as B. rewrite forallb_forall in B. specialize (B o). assert (I0 : In o (map N.of_nat (seq 0 256))).
  { apply in_map_iff. exists (N.to_nat o). split; [lia|]. apply in_seq. lia. }
  apply B, andb_true_iff in I0 as [B1 B2]. split; [apply eqb_prop; exact B1|apply Nat.eqb_eq; exact B2].
Qed.

(* ---- escapes ---- *)
Lemma octets_app e os e' os' : octets e os -> octets e' os' -> octets (e ++ e') (os ++ os').
Proof. induction 1; intros H'; cbn [app]; [exact H'|]. constructor; auto. Qed.
Lemma octets_prefix e os t e0 os0 q : octets e os -> octets e0 os0 -> e ++ t = e0 ++ q -> (length os <= length os0)%nat ->
  exists e1 os1, e0 = e ++ e1 /\ os0 = os ++ os1 /\ octets e1 os1 /\ t = e1 ++ q.
Proof.
  intros H. revert e0 os0. induction H as [|a b e os A B H IH]; intros e0 os0 H0 E0 L.
  - exists e0, os0. auto.
  - destruct H0 as [|a' b' e0 os0 A' B' H0]; [cbn in L; lia|]. cbn [app] in E0. injection E0 as <- <- E0. cbn [length] in L. destruct (IH e0 os0 H0 E0) as (e1 & os1 & -> & -> & H1 & ->); [lia|]. exists e1, os1. auto.
Qed.
Lemma octets_len e os : octets e os -> length e = (3 * length os)%nat.
Proof. induction 1; cbn [length]; lia. Qed.
(* the first byte decides *)
Lemma octets_first e os t e0 os0 q : octets e os -> utf8_like os -> octets e0 os0 -> utf8_like os0 -> e ++ t = e0 ++ q -> e = e0 /\ os = os0 /\ t = q.
Proof.
  intros H U H0 U0 E0. assert (L : length os = length os0).
  { destruct H as [|a b e os A B H]; [destruct U|]. destruct H0 as [|a' b' e0 os0 A' B' H0]; [destruct U0|]. cbn [app] in E0. injection E0 as <- <- _. destruct U as [U _], U0 as [U0 _]. rewrite U in U0. injection U0 as U0. cbn [length]. lia. }
  destruct (octets_prefix _ _ _ _ _ _ H H0 E0) as (e1 & os1 & -> & -> & H1 & ->); [lia|]. rewrite app_length in L. destruct os1; [|cbn [length] in L; lia]. inversion H1; subst. rewrite !app_nil_r. auto.
Qed.
Lemma octets_pct e os : octets e os -> utf8_like os -> exists e', e = 0x25 :: e'.
Proof. intros H U. destruct H; [destruct U|]. eauto. Qed.
Definition bad_escape (t : list N) : Prop := forall e os q, t = e ++ q -> octets e os -> utf8_like os -> False.
Definition uri_stops (wide : bool) (t : list N) : Prop := uri_class wide (head t) = false.
(* the text behind [u], if another reading goes on to [r] *)
Lemma uri_strip wide u v t u0 v0 r : uri wide u v -> uri wide u0 v0 -> uri_stops wide r -> u ++ t = u0 ++ r ->
  exists u1 v1, u0 = u ++ u1 /\ v0 = v ++ v1 /\ uri wide u1 v1 /\ t = u1 ++ r.
Proof.
  intros H. revert u0 v0. induction H as [|x u v X H IH|e os u v O U H IH]; intros u0 v0 H0 St E0.
  - exists u0, v0. auto.
  - destruct H0 as [|y u0 v0 Y H0|e0 os0 u0 v0 O0 U0 H0].
    + exfalso. cbn [app] in E0. subst r. unfold uri_stops in St. cbn [nth] in St. assert (Y : uri_class wide x = true) by (apply uri_class_is; left; exact X). congruence.
    + cbn [app] in E0. injection E0 as <- E0. destruct (IH _ _ H0 St E0) as (u1 & v1 & -> & -> & H1 & ->). exists u1, v1. auto.
    + exfalso. destruct (octets_pct _ _ O0 U0) as (e' & ->). cbn [app] in E0. injection E0 as -> _. exact (not_pct _ X).
  - destruct (octets_pct _ _ O U) as (e' & Ee). destruct H0 as [|y u0 v0 Y H0|e0 os0 u0 v0 O0 U0 H0].
    + exfalso. cbn [app] in E0. subst r e. unfold uri_stops in St. cbn [app nth] in St. assert (Y : uri_class wide 0x25 = true) by (apply uri_class_is; right; reflexivity). congruence.
    + exfalso. subst e. cbn [app] in E0. injection E0 as <- _. exact (not_pct _ Y).
    + rewrite <- !app_assoc in E0. destruct (octets_first _ _ _ _ _ _ O U O0 U0 E0) as (-> & -> & E1). destruct (IH _ _ H0 St E1) as (u1 & v1 & -> & -> & H1 & ->). exists u1, v1. rewrite !app_assoc. auto.
Qed.
Lemma uri_first wide u v t : uri wide u v -> u <> [] -> uri_class wide (head (u ++ t)) = true.
Proof.
  intros H N0. destruct H as [|x u v X H|e os u v O U H]; [destruct (N0 eq_refl)|apply uri_class_is; left; exact X|].
  destruct (octets_pct _ _ O U) as (e' & ->). apply uri_class_is. right. reflexivity.
Qed.
Lemma uri_empty wide v : uri wide [] v -> v = [].
Proof.
  intros H. inversion H as [|x u w X Hw|e os u w O U Hw E0]; [reflexivity|]. apply app_eq_nil in E0 as [-> _]. inversion O; subst. destruct U.
Qed.
Lemma uri_unique wide u v t u0 v0 r : uri wide u v -> uri wide u0 v0 -> uri_stops wide t -> uri_stops wide r -> u ++ t = u0 ++ r -> u = u0 /\ v = v0 /\ t = r.
Proof.
  intros H H0 St Sr E0. destruct (uri_strip _ _ _ _ _ _ _ H H0 Sr E0) as (u1 & v1 & -> & -> & H1 & ->).
  destruct u1 as [|x u1]; [apply uri_empty in H1 as ->; rewrite !app_nil_r; auto|]. exfalso. pose proof (uri_first _ _ _ r H1) as X. unfold uri_stops in St. rewrite X in St; discriminate.
Qed.
Lemma uri_app wide u v u' v' : uri wide u v -> uri wide u' v' -> uri wide (u ++ u') (v ++ v').
Proof. induction 1 as [|x u v X H IH|e os u v O U H IH]; intros H'; cbn [app]; [exact H'|constructor; auto|]. rewrite <- !app_assoc. constructor; auto. Qed.

Section Read.
Variables (start : mark) (E : serr -> Prop) (nothing : Prop).
Hypothesis HEr : forall m, E (mkSerr SReader None m).
Hypothesis HEn : nothing -> forall p m, E (mkSerr p (Some start) m).
Set Default Proof Using "All".

Lemma x_uri_escapes s n t m c (Q : list N -> cur -> Prop) : hold n t m c -> (bad_escape t -> nothing) ->
  (forall e os q m' c', t = e ++ q -> octets e os -> utf8_like os -> hold 0 q m' c' -> Q (s ++ os) c') -> wp (scan_uri_escapes start s) c Q E.
Proof.
  intros H Hb HQ. unfold scan_uri_escapes.
  apply (wp_loop (fun (a : nat * nat * list N) c => let '(w, free, s1) := a in exists e os t1 m1, t = e ++ t1 /\ octets e os /\ hold 0 t1 m1 c /\ s1 = s ++ os /\
     (os = [] /\ w = O /\ free = room \/ exists o tr, os = o :: tr /\ following o = Some (length tr + w)%nat /\ (1 <= w <= 3 /\ w <= free)%nat /\ Forall (fun x => 0x80 <= x < 0xC0) tr))).
  { exists [], [], t, m. split; [reflexivity|]. split; [constructor|]. split; [eapply hold_le; [exact H|lia]|]. rewrite app_nil_r. split; [reflexivity|left; auto]. }
  clear H c. intros [[w free] s1] c (e & os & t1 & m1 & E0 & Oc & H & -> & J).
  (* what a correct escape would go on with *)
  assert (Go : forall e0 os0 q, t = e0 ++ q -> octets e0 os0 -> utf8_like os0 -> exists a b e2 os2, t1 = 0x25 :: a :: b :: e2 ++ q /\ is_hex a = true /\ is_hex b = true /\ octets e2 os2 /\ os0 = os ++ as_hex a * 16 + as_hex b :: os2).
  { intros e0 os0 q Eq O0 U0. rewrite E0 in Eq. assert (L : (length os < length os0)%nat).
    { destruct J as [(-> & _)|(o & tr & -> & Fo & Hw & _)]; [destruct os0; [destruct U0|cbn [length]; lia]|]. destruct O0 as [|a' b' e0 os0 A' B' O0]; [destruct U0|]. inversion Oc as [|a b e' os' A B Oc']; subst. cbn [app] in Eq. injection Eq as -> -> _. destruct U0 as [U0 _]. rewrite U0 in Fo. injection Fo as Fo. cbn [length]. lia. }
    destruct (octets_prefix _ _ _ _ _ _ Oc O0 Eq) as (e1 & os1 & -> & -> & O1 & ->); [lia|]. rewrite app_length in L. destruct O1 as [|a b e2 os2 A B O2]; [cbn [length] in L; lia|]. exists a, b, e2, os2. auto. }
  apply wp_bind. eapply x_cache; [exact HEr|exact H|]. intros c1 H1.
  assert (Bad : forall p, bad_escape t -> wp (err (Some start) p) c1 (fun r c' => match r with inl a => (let '(w, free, s1) := a in exists e os t1 m1, t = e ++ t1 /\ octets e os /\ hold 0 t1 m1 c' /\ s1 = s ++ os /\
     (os = [] /\ w = O /\ free = room \/ exists o tr, os = o :: tr /\ following o = Some (length tr + w)%nat /\ (1 <= w <= 3 /\ w <= free)%nat /\ Forall (fun x => 0x80 <= x < 0xC0) tr)) /\ (length (c_text c') < length (c_text c))%nat | inr b => Q b c' end) E).
  { intros p Hp. eapply wp_err; [exact H1|]. apply HEn, Hb, Hp. }
  apply wp_bind. eapply (wp_mono _ _ (fun b c' => c' = c1 /\ (b = true -> exists a b q, t1 = 0x25 :: a :: b :: q /\ is_hex a = true /\ is_hex b = true) /\ (b = false -> bad_escape t))).
  { apply wp_andc. eapply wp_check0; [exact H1|lia|]. unfold eqc at 1. destruct (N.eqb_spec (nth 0 t1 0) 0x25) as [X0|X0].
    2:{ split; [reflexivity|]. split; [discriminate|]. intros _ e0 os0 q Eq O0 U0. destruct (Go _ _ _ Eq O0 U0) as (a & b & e2 & os2 & -> & _). exact (X0 eq_refl). }
    destruct (nth0_cons t1) as (x & r & ->); [intros Z; rewrite Z in X0; discriminate|]. cbn [nth] in X0. subst x. apply wp_andc.
    eapply wp_check; [exact H1|lia|cbn [length]; lia|reflexivity|]. cbn [nth]. destruct (is_hex (nth 0 r 0)) eqn:X1.
    2:{ split; [reflexivity|]. split; [discriminate|]. intros _ e0 os0 q Eq O0 U0. destruct (Go _ _ _ Eq O0 U0) as (a & b & e2 & os2 & E2 & A & _). injection E2 as ->. cbn [nth] in X1. congruence. }
    destruct (nth0_cons r) as (a & q & ->); [intros Z; rewrite Z in X1; discriminate|]. cbn [nth] in X1.
    eapply wp_check; [exact H1|lia|cbn [length]; lia|cbn [firstn forallb]; rewrite (hex_ascii _ X1); reflexivity|]. cbn [nth]. destruct (is_hex (nth 0 q 0)) eqn:X2.
    2:{ split; [reflexivity|]. split; [discriminate|]. intros _ e0 os0 q0 Eq O0 U0. destruct (Go _ _ _ Eq O0 U0) as (a' & b & e2 & os2 & E2 & _ & B & _). injection E2 as -> ->. cbn [nth] in X2. congruence. }
    destruct (nth0_cons q) as (b & q' & ->); [intros Z; rewrite Z in X2; discriminate|]. cbn [nth] in X2. split; [reflexivity|]. split; [intros _; exists a, b, q'; auto|discriminate]. }
  2:{ intros ? X. exact X. }
  intros ok c2 (-> & Ok & Nok). destruct ok; cbn [negb]; [|apply Bad, Nok; reflexivity]. destruct (Ok eq_refl) as (a & b & q & -> & A & B). clear Ok Nok.
  apply wp_bind. eapply wp_peek; [exact H1|lia|cbn [length]; lia|reflexivity|]. intros _. cbn [nth]. apply wp_bind. eapply wp_peek; [exact H1|lia|cbn [length]; lia|cbn [firstn forallb]; rewrite (hex_ascii _ A); reflexivity|]. intros _. cbn [nth].
  set (o := as_hex a * 16 + as_hex b) in *. destruct (bits o (hex_byte _ _ A B)) as [Bt Bw].
  assert (Go' : forall e0 os0 q0, t = e0 ++ q0 -> octets e0 os0 -> utf8_like os0 -> exists os2, os0 = os ++ o :: os2).
  { intros e0 os0 q0 Eq O0 U0. destruct (Go _ _ _ Eq O0 U0) as (a' & b' & e2 & os2 & E2 & _ & _ & _ & ->). injection E2 as <- <- _. exists os2. reflexivity. }
  assert (Oc' : octets (e ++ [0x25; a; b]) (os ++ [o])) by (apply octets_app; [exact Oc|]; repeat constructor; assumption).
  assert (K : forall k, (1 <= k <= 4 /\ k <= free)%nat -> (exists o1 tr, os ++ [o] = o1 :: tr /\ following o1 = Some (length tr + (k - 1))%nat /\ Forall (fun x => 0x80 <= x < 0xC0) tr) -> wp
    match free with
    | O => ub
    | S rest' =>
        skip ;;; skip ;;; skip ;;;
        match k with
        | S (S w') => ret (inl (S w', rest', (s ++ os) ++ [o]))
        | _ => ret (inr ((s ++ os) ++ [o]))
        end
    end c1 (fun r c' => match r with inl a => (let '(w, free, s1) := a in exists e os t1 m1, t = e ++ t1 /\ octets e os /\ hold 0 t1 m1 c' /\ s1 = s ++ os /\
     (os = [] /\ w = O /\ free = room \/ exists o tr, os = o :: tr /\ following o = Some (length tr + w)%nat /\ (1 <= w <= 3 /\ w <= free)%nat /\ Forall (fun x => 0x80 <= x < 0xC0) tr)) /\ (length (c_text c') < length (c_text c))%nat | inr b => Q b c' end) E).
  { intros k Hk (o1 & tr & Eo & Fo & Ft). destruct free as [|f]; [lia|]. apply wp_bind. eapply wp_skip; [apply (hold_le 3%nat _ _ _ _ H1); lia|]. intros c2 H2. apply wp_bind. eapply wp_skip; [exact H2|]. intros c3 H3. apply wp_bind. eapply wp_skip; [exact H3|]. intros c4 H4.
    assert (E1 : t = (e ++ [0x25; a; b]) ++ q) by (rewrite E0, <- app_assoc; reflexivity). rewrite <- app_assoc. destruct k as [|[|k]]; [lia| |].
    - apply wp_ret. eapply HQ; [exact E1|exact Oc'| |exact H4]. rewrite Eo. split; [rewrite Fo; f_equal; lia|exact Ft].
    - apply wp_ret. split.
      + exists (e ++ [0x25; a; b]), (os ++ [o]), q, (next_column 1 (next_column 1 (next_column 1 m1))). split; [exact E1|]. split; [exact Oc'|]. split; [exact H4|]. split; [reflexivity|]. right. exists o1, tr. split; [exact Eo|]. split; [rewrite Fo; f_equal; lia|]. split; [lia|exact Ft].
      + rewrite (proj1 H4), (proj1 H). cbn [length]. lia. }
  apply wp_bind. destruct (Nat.eqb_spec w 0) as [W0|W0].
  - destruct J as [(-> & _ & ->)|(o1 & tr & _ & _ & Hw & _)]; [|lia]. destruct (Nat.eqb_spec (uri_width o) 0) as [U0|U0].
    + apply Bad. intros e0 os0 q0 Eq O0 Ul. destruct (Go' _ _ _ Eq O0 Ul) as (os2 & ->). destruct Ul as [Ul _]. rewrite Bw, Ul in U0. discriminate.
    + apply wp_ret. apply K.
      * unfold room. unfold following in Bw. repeat match goal with X : context [if ?q then _ else _] |- _ => destruct q end; lia.
      * exists o, []. split; [reflexivity|]. split; [|constructor]. rewrite Bw. rewrite Bw in U0. destruct (following o); [cbn [length]; f_equal; lia|destruct (U0 eq_refl)].
  - destruct J as [(_ & X & _)|(o1 & tr & -> & Fo & Hw & Ft)]; [contradiction|]. rewrite Bt. destruct ((0x80 <=? o) && (o <? 0xC0)) eqn:Tr; cbn [negb].
    + apply wp_ret. apply K; [lia|]. exists o1, (tr ++ [o]). split; [reflexivity|]. rewrite app_length. cbn [length]. split; [rewrite Fo; f_equal; lia|]. apply Forall_app. split; [exact Ft|]. constructor; [lia|constructor].
    + apply Bad. intros e0 os0 q0 Eq O0 Ul. destruct (Go' _ _ _ Eq O0 Ul) as (os2 & ->). cbn [app] in Ul. destruct Ul as [_ Ul]. apply Forall_app in Ul as [_ Ul]. apply Forall_inv in Ul. lia.
Qed.
Definition no_uri (wide : bool) (more : bool) (t : list N) : Prop := forall u v r, t = u ++ r -> uri wide u v -> uri_stops wide r -> (more = false -> u <> []) -> False.
Definition has {A} (l : list A) : bool := match l with [] => false | _ => true end.
Lemma x_uri wide head n t m c (Q : list N -> cur -> Prop) : hold n t m c -> (no_uri wide (has head) t -> nothing) ->
  (forall u v q m' c', t = u ++ q -> uri wide u v -> uri_stops wide q -> (has head = false -> u <> []) -> hold 1 q m' c' -> Q (up_to_nul (tl head ++ v)) c') ->
  wp (scan_tag_uri wide head start) c Q E.
Proof.
  intros H Hn HQ. unfold scan_tag_uri. apply wp_bind. eapply x_cache; [exact HEr|exact H|]. intros c1 H1. apply wp_bind.
  apply (wp_loop (fun (a : list N * bool) c => exists u v t1 m1, t = u ++ t1 /\ uri wide u v /\ hold 1 t1 m1 c /\ a = (tl head ++ v, has head || has u))).
  { exists [], [], t, m. split; [reflexivity|]. split; [constructor|]. split; [eapply hold_le; [exact H1|lia]|]. rewrite app_nil_r, orb_false_r. reflexivity. }
  clear H H1 c c1. intros ? c (u & v & t1 & m1 & E0 & U & H & ->). apply wp_bind. eapply wp_check0; [exact H|lia|]. destruct (uri_class wide (nth 0 t1 0)) eqn:C.
  - destruct (nth0_cons t1) as (x & r & ->); [intros Z; rewrite Z in C; destruct wide; discriminate|]. cbn [nth] in C. apply wp_bind. eapply wp_check0; [exact H|lia|]. cbn [nth]. unfold eqc. apply wp_bind.
    assert (Kk : forall u1 v1 q m' c', x :: r = u1 ++ q -> u1 <> [] -> uri wide u1 v1 -> hold 0 q m' c' ->
      wp (cache 1 ;;; ret (inl ((tl head ++ v) ++ v1, true)) : cm ((list N * bool) + (list N * bool))) c' (fun r c' => match r with inl a => (exists u v t1 m1, t = u ++ t1 /\ uri wide u v /\ hold 1 t1 m1 c' /\ a = (tl head ++ v, has head || has u)) /\ (length (c_text c') < length (c_text c))%nat
         | inr b => wp (if snd b then ret (cstr (fst b)) else err (Some start) SNoUri) c' Q E end) E).
    { intros u1 v1 q m' c' E1 N1 U1 H2. apply wp_bind. eapply x_cache; [exact HEr|exact H2|]. intros c2 H3. apply wp_ret. split.
      - exists (u ++ u1), (v ++ v1), q, m'. split; [rewrite E0, E1, app_assoc; reflexivity|]. split; [apply uri_app; assumption|]. split; [eapply hold_le; [exact H3|lia]|]. rewrite app_assoc. f_equal.
        destruct u1; [destruct (N1 eq_refl)|]. destruct u; cbn [app has]; rewrite orb_true_r; reflexivity.
      - rewrite (proj1 H3), (proj1 H), E1, app_length. destruct u1; [destruct (N1 eq_refl)|cbn [length]; lia]. }
    destruct (N.eqb_spec x 0x25) as [->|Nx].
    + eapply x_uri_escapes; [exact H| |].
      * intros Bd. apply Hn. intros u0 v0 r0 E1 U0 Sr _. rewrite E0 in E1. destruct (uri_strip _ _ _ _ _ _ _ U U0 Sr E1) as (u1 & v1 & _ & _ & U1 & E2).
        inversion U1 as [|y u2 v2 Y U2 Ea|ee os u2 v2 Oo Ul U2 Ea]; subst.
        -- cbn [app] in E2. rewrite <- E2 in Sr. unfold uri_stops in Sr. cbn in Sr. destruct wide; discriminate.
        -- cbn [app] in E2. injection E2 as <- _. exact (not_pct _ Y).
        -- rewrite <- app_assoc in E2. exact (Bd _ _ _ E2 Oo Ul).
      * intros ee os q m' c' E1 Oo Ul H2. eapply (Kk ee os); [exact E1|destruct (octets_pct _ _ Oo Ul) as (? & ->); discriminate| |exact H2]. rewrite <- (app_nil_r ee), <- (app_nil_r os). constructor; [exact Oo|exact Ul|constructor].
    + eapply wp_read; [exact H|]. intros c2 H2. rewrite (ascii_utf8 x (uri_ascii _ _ C)). eapply (Kk [x] [x]); [reflexivity|discriminate| |exact H2]. constructor; [|constructor]. apply uri_class_is in C as [C|C]; [exact C|contradiction].
  - apply wp_ret. cbn [fst snd]. assert (St : uri_stops wide t1) by exact C. destruct (has head || has u) eqn:So.
    + rewrite cstr_is. apply wp_ret. eapply HQ; [exact E0|exact U|exact St| |exact H]. intros Hh ->. rewrite Hh in So. discriminate.
    + eapply wp_err; [exact H|]. apply HEn, Hn. intros u0 v0 r0 E1 U0 Sr M. rewrite E0 in E1. apply orb_false_iff in So as [Hh Hu]. destruct (uri_unique _ _ _ _ _ _ _ U U0 St Sr E1) as (-> & _). apply (M Hh). destruct u0; [reflexivity|discriminate].
Qed.
Lemma x_handle directive n t m c (Q : list N -> cur -> Prop) : hold n t m c ->
  (nth 0 t 0 <> 0x21 -> nothing) ->
  (forall w q, t = 0x21 :: w ++ q -> name w -> is_alpha (nth 0 q 0) = false -> nth 0 q 0 <> 0x21 -> w <> [] -> directive = true -> nothing) ->
  (forall w q m' c', t = 0x21 :: w ++ 0x21 :: q -> name w -> hold 0 q m' c' -> Q (0x21 :: w ++ [0x21]) c') ->
  (forall w q m' c', t = 0x21 :: w ++ q -> name w -> is_alpha (nth 0 q 0) = false -> nth 0 q 0 <> 0x21 -> (directive = true -> w = []) -> hold 1 q m' c' -> Q (0x21 :: w) c') ->
  wp (scan_tag_handle directive start) c Q E.
Proof.
  intros H Hn Hs HQ1 HQ2. unfold scan_tag_handle. apply wp_bind. eapply x_cache; [exact HEr|exact H|]. intros c1 H1. apply wp_bind. eapply wp_check0; [exact H1|lia|]. unfold eqc at 1. destruct (N.eqb_spec (nth 0 t 0) 0x21) as [X|X]; cbn [negb].
  2:{ eapply wp_err; [exact H1|]. apply HEn, Hn, X. }
  destruct (nth0_cons t) as (x & r & ->); [intros Z; rewrite Z in X; discriminate|]. cbn [nth] in X. subst x. apply wp_bind. eapply wp_read; [apply (hold_le 1%nat _ _ _ _ H1); lia|]. intros c2 H2. cbn [app]. change (utf8_enc 0x21) with [0x21].
  apply wp_bind. eapply x_cache; [exact HEr|exact H2|]. intros c3 H3. apply wp_bind. eapply x_read_while; [exact HEr|exact H3|lia|intros y Y; split; [intros ->; discriminate|clear -Y; cls]|]. intros w q c4 Eq F H4 Na. rewrite (name_utf8 w F). cbn [app].
  apply wp_bind. eapply wp_check0; [exact H4|lia|]. unfold eqc. destruct (N.eqb_spec (nth 0 q 0) 0x21) as [Y|Y].
  - destruct (nth0_cons q) as (y & q' & ->); [intros Z; rewrite Z in Y; discriminate|]. cbn [nth] in Y. subst y. eapply wp_read; [exact H4|]. intros c5 H5. change (utf8_enc 0x21) with [0x21]. cbn [app]. eapply HQ1; [rewrite Eq; reflexivity|exact F|exact H5].
  - destruct (str_eqb (0x21 :: w) [0x21]) eqn:Sw.
    + rewrite andb_false_r. apply wp_ret. assert (w = []) as -> by (destruct w; [reflexivity|cbn in Sw; try rewrite andb_false_r in Sw; discriminate]). eapply HQ2; [rewrite Eq; reflexivity|exact F|exact Na|exact Y|reflexivity|exact H4].
    + assert (Nw : w <> []) by (intros ->; discriminate). destruct directive; cbn [andb negb].
      * eapply wp_err; [exact H4|]. apply HEn. eapply Hs; [rewrite Eq; reflexivity|exact F|exact Na|exact Y|exact Nw|reflexivity].
      * apply wp_ret. eapply HQ2; [rewrite Eq; reflexivity|exact F|exact Na|exact Y|discriminate|exact H4].
Qed.
End Read.

(* ---- anchors and aliases ---- *)
Lemma anchor_unique t s r s' r' : anchor_text t s r -> anchor_text t s' r' -> s = s' /\ r = r'.
Proof.
  assert (K : forall r, is_blankz (nth 0 r 0) = true \/ In (nth 0 r 0) [0x3F; 0x3A; 0x2C; 0x5D; 0x7D; 0x25; 0x40; 0x60] -> is_alpha (nth 0 r 0) = false).
  { clear. intros r [H|H]; [cls|]. cbn [In] in H. repeat (destruct H as [<-|H]; [reflexivity|]). destruct H. }
  intros (-> & _ & N1 & E1) (Eq & _ & N2 & E2). destruct (span_unique _ _ _ _ _ N1 N2 (K _ E1) (K _ E2) Eq) as [-> ->]. auto.
Qed.
Lemma anchor_end_is x : anchor_end x = true <-> is_blankz x = true \/ In x [0x3F; 0x3A; 0x2C; 0x5D; 0x7D; 0x25; 0x40; 0x60].
Proof. unfold anchor_end. rewrite orb_true_iff, existsb_exists. split; (intros [H|H]; [left; exact H|right]). - destruct H as (y & H & E). apply N.eqb_eq in E. subst. exact H. - exists x. split; [exact H|apply N.eqb_refl]. Qed.
Theorem anchor_exact anchor c x t : (1 <= c_unread c)%nat -> c_text c = x :: t ->
  match scan_anchor anchor c with
  | COk tk c' => exists s, tk = mkToken (if anchor then TAnchor s else TAlias s) (c_mark c) (c_mark c') false /\
      forall s' r, anchor_text t s' r <-> s' = s /\ r = c_text c'
  | CErr e => se_problem e = SReader \/ forall s r, ~ anchor_text t s r
  | CBad | CFuel => False
  end.
Proof.
  intros U T. set (m := c_mark c). set (nothing := forall s r, ~ anchor_text t s r). set (E := fun e => se_problem e = SReader \/ nothing).
  assert (H : hold 1 (x :: t) m c) by (repeat split; [exact T|lia]).
  cut (wp (scan_anchor anchor) c (fun tk c' => exists s, tk = mkToken (if anchor then TAnchor s else TAlias s) m (c_mark c') false /\ forall s' r, anchor_text t s' r <-> s' = s /\ r = c_text c') E).
  { unfold wp. destruct (scan_anchor anchor c); cbn; auto. }
  assert (HEr : forall m, E (mkSerr SReader None m)) by (left; reflexivity).
  unfold scan_anchor. apply wp_bind. eapply wp_get_mark; [exact H|]. apply wp_bind. eapply wp_skip; [exact H|]. intros c1 H1. apply wp_bind. eapply x_cache; [exact HEr|exact H1|]. intros c2 H2.
  apply wp_bind. eapply x_read_while; [exact HEr|exact H2|lia|intros y Y; split; [intros ->; discriminate|clear -Y; cls]|]. intros w q c3 Eq F H3 Na. rewrite (name_utf8 w F). cbn [app]. apply wp_bind. eapply wp_get_mark; [exact H3|].
  assert (Un : forall s r, anchor_text t s r -> s = w /\ r = q).
  { intros s r (Et & _ & N2 & E2). rewrite Eq in Et. assert (is_alpha (nth 0 r 0) = false). { apply anchor_end_is in E2. clear -E2. unfold anchor_end in E2. cbn [existsb] in E2. cls. }
    destruct (span_unique _ _ _ _ _ F N2 Na H0 Et) as [-> ->]. auto. }
  destruct w as [|y w].
  - eapply wp_err; [exact H3|]. right. intros s r A. destruct (Un _ _ A) as [-> _]. destruct A as (_ & X & _). exact (X eq_refl).
  - apply wp_bind. eapply wp_check0; [exact H3|lia|]. destruct (anchor_end (nth 0 q 0)) eqn:Z; cbn [negb].
    + apply wp_ret. exists (y :: w). rewrite (proj1 H3), (proj1 (proj2 H3)). split; [reflexivity|]. intros s r. split; [apply Un|intros (-> & ->)]. split; [exact Eq|]. split; [discriminate|]. split; [exact F|]. apply anchor_end_is. exact Z.
    + eapply wp_err; [exact H3|]. right. intros s r A. destruct (Un _ _ A) as [-> ->]. destruct A as (_ & _ & _ & X). apply anchor_end_is in X. congruence.
Qed.

(* ---- tags ---- *)
Lemma name_uri wide w : name w -> uri wide w w.
Proof. induction 1 as [|x w X F IH]; [constructor|]. constructor; [left; exact X|exact IH]. Qed.
Lemma bang_char wide : uri_char wide 0x21.
Proof. right. left. cbn [In]. intuition. Qed.
Lemma name_not_nul w v : name w -> w <> [] -> up_to_nul (w ++ v) <> [].
Proof. intros F N0. destruct F as [|x w X F]; [destruct (N0 eq_refl)|]. cbn [app up_to_nul]. destruct (N.eqb_spec x 0) as [->|_]; discriminate. Qed.
Lemma bang_not_nul w v : name w -> up_to_nul (w ++ 0x21 :: v) <> [].
Proof. intros F. destruct F as [|x w X F]; [discriminate|]. apply name_not_nul; [constructor; assumption|discriminate]. Qed.
Lemma ends_stop flow r : tag_ends flow r -> uri_stops false r.
Proof. unfold tag_ends, uri_stops. intros [H|[_ ->]]; [|reflexivity]. unfold uri_class. cbn [existsb andb]. rewrite orb_false_r. cls. Qed.
Lemma bang_na l : is_alpha (nth 0 (0x21 :: l) 0) = false.
Proof. reflexivity. Qed.
Lemma close_stop r : uri_stops true (0x3E :: r).
Proof. reflexivity. Qed.
Definition tag_form (u0 v0 r h s : list N) : Prop :=
  (exists w u v, u0 = w ++ 0x21 :: u /\ v0 = w ++ 0x21 :: v /\ name w /\ u <> [] /\ uri false u v /\ h = 0x21 :: w ++ [0x21] /\ s = up_to_nul v) \/
  (exists w u, u0 = w ++ u /\ name w /\ is_alpha (nth 0 (u ++ r) 0) = false /\ nth 0 (u ++ r) 0 <> 0x21 /\ up_to_nul v0 <> [] /\ h = [0x21] /\ s = up_to_nul v0) \/
  (up_to_nul v0 = [] /\ h = [] /\ s = [0x21]).
Lemma tag_cases flow t h s r : tag_text flow t h s r ->
  (exists u v, t = 0x3C :: u ++ 0x3E :: r /\ u <> [] /\ uri true u v /\ tag_ends flow r /\ h = [] /\ s = up_to_nul v) \/
  (nth 0 t 0 <> 0x3C /\ exists u0 v0, t = u0 ++ r /\ uri false u0 v0 /\ tag_ends flow r /\ tag_form u0 v0 r h s).
Proof.
  assert (Nl : forall u v r, uri false u v -> tag_ends flow r -> nth 0 (u ++ r) 0 <> 0x3C).
  { intros u v r0 U Te X. destruct u as [|x u].
    - cbn [app] in X. destruct Te as [Te|[_ Te]]; rewrite X in Te; discriminate.
    - pose proof (uri_first _ _ _ r0 U) as Y. rewrite X in Y. specialize (Y ltac:(discriminate)). discriminate. }
  destruct 1 as [u v r N0 U Te|w u v r F N0 U Te|w u v r F Na Nb U Te Z|u v r U Te Z].
  - left. exists u, v. auto 6.
  - right. assert (U1 : uri false (w ++ 0x21 :: u) (w ++ 0x21 :: v)) by (apply uri_app; [apply name_uri, F|constructor; [apply bang_char|exact U]]).
    split; [replace (w ++ 0x21 :: u ++ r) with ((w ++ 0x21 :: u) ++ r) by (rewrite <- app_assoc; reflexivity); eapply Nl; eassumption|].
    exists (w ++ 0x21 :: u), (w ++ 0x21 :: v). split; [rewrite <- app_assoc; reflexivity|]. split; [exact U1|]. split; [exact Te|]. left. exists w, u, v. auto 8.
  - right. assert (U1 : uri false (w ++ u) (w ++ v)) by (apply uri_app; [apply name_uri, F|exact U]). split; [rewrite app_assoc; eapply Nl; eassumption|].
    exists (w ++ u), (w ++ v). split; [apply app_assoc|]. split; [exact U1|]. split; [exact Te|]. right. left. exists w, u. auto 8.
  - right. split; [eapply Nl; eassumption|]. exists u, v. split; [reflexivity|]. split; [exact U|]. split; [exact Te|]. right. right. auto.
Qed.
Lemma form_unique u v r h s h' s' : tag_form u v r h s -> tag_form u v r h' s' -> h = h' /\ s = s'.
Proof.
  assert (K12 : forall w u1 w' u2, w ++ 0x21 :: u1 = w' ++ u2 -> name w -> name w' -> is_alpha (nth 0 (u2 ++ r) 0) = false -> nth 0 (u2 ++ r) 0 <> 0x21 -> False).
  { intros w u1 w' u2 Eq F F' Na Nb. assert (Eq' : w ++ 0x21 :: u1 ++ r = w' ++ u2 ++ r) by (rewrite app_assoc, <- Eq, <- app_assoc; reflexivity).
    destruct (span_unique _ w _ w' _ F F' (bang_na _) Na Eq') as [_ X]. rewrite <- X in Nb. exact (Nb eq_refl). }
  intros [A|[A|A]] [B|[B|B]].
  - destruct A as (w & u1 & v1 & -> & -> & F & N1 & U1 & -> & ->). destruct B as (w' & u2 & v2 & Eu & Ev & F' & N2 & U2 & -> & ->).
    destruct (span_unique _ w _ w' _ F F' (bang_na _) (bang_na _) Eu) as [<- _]. apply app_inv_head in Ev. injection Ev as ->. auto.
  - exfalso. destruct A as (w & u1 & v1 & -> & -> & F & N1 & U1 & -> & ->). destruct B as (w' & u2 & Eu & F' & Na & Nb & _). exact (K12 _ _ _ _ Eu F F' Na Nb).
  - exfalso. destruct A as (w & u1 & v1 & -> & -> & F & _). destruct B as (X & _). exact (bang_not_nul _ _ F X).
  - exfalso. destruct B as (w & u1 & v1 & -> & -> & F & N1 & U1 & -> & ->). destruct A as (w' & u2 & Eu & F' & Na & Nb & _). exact (K12 _ _ _ _ Eu F F' Na Nb).
  - destruct A as (w & u1 & _ & _ & _ & _ & _ & -> & ->). destruct B as (w' & u2 & _ & _ & _ & _ & _ & -> & ->). auto.
  - exfalso. destruct A as (w & u1 & _ & _ & _ & _ & X & _). destruct B as (Y & _). contradiction.
  - exfalso. destruct B as (w & u1 & v1 & -> & -> & F & _). destruct A as (X & _). exact (bang_not_nul _ _ F X).
  - exfalso. destruct B as (w & u1 & _ & _ & _ & _ & X & _). destruct A as (Y & _). contradiction.
  - destruct A as (_ & -> & ->), B as (_ & -> & ->). auto.
Qed.
Lemma tag_unique flow t h s r h' s' r' : tag_text flow t h s r -> tag_text flow t h' s' r' -> h = h' /\ s = s' /\ r = r'.
Proof.
  intros A B. apply tag_cases in A. apply tag_cases in B. destruct A as [(u & v & -> & N0 & U & Te & -> & ->)|(Nl & u & v & -> & U & Te & A)]; destruct B as [(u' & v' & Eq & N0' & U' & Te' & -> & ->)|(Nl' & u' & v' & Eq & U' & Te' & B)].
  - injection Eq as Eq. destruct (uri_unique _ _ _ _ _ _ _ U U' (close_stop _) (close_stop _) Eq) as (_ & -> & Er). injection Er as ->. auto.
  - exfalso. apply Nl'. reflexivity.
  - exfalso. rewrite Eq in Nl. apply Nl. reflexivity.
  - destruct (uri_unique _ _ _ _ _ _ _ U U' (ends_stop _ _ Te) (ends_stop _ _ Te') Eq) as (-> & -> & ->). destruct (form_unique _ _ _ _ _ _ _ A B) as [-> ->]. auto.
Qed.
Lemma handle_closed w : name w -> is_handle (0x21 :: w ++ [0x21]) = true.
Proof. intros _. unfold is_handle. destruct (w ++ [0x21]) as [|y l] eqn:El; [destruct w; discriminate|]. rewrite <- El. change (0x21 :: w ++ [0x21]) with ((0x21 :: w) ++ [0x21]). rewrite last_last. reflexivity. Qed.
Lemma handle_open w : name w -> is_handle (0x21 :: w) = false.
Proof.
  intros F. unfold is_handle. destruct w as [|y l] using rev_ind; [reflexivity|]. clear IHl. apply Forall_app in F as [_ F]. apply Forall_inv in F. destruct (l ++ [y]) as [|z q] eqn:El; [destruct l; discriminate|]. rewrite <- El. change (0x21 :: l ++ [y]) with ((0x21 :: l) ++ [y]). rewrite last_last.
  apply N.eqb_neq. intros ->. discriminate.
Qed.
Theorem tag_exact flow c t : c_text c = 0x21 :: t ->
  match scan_tag flow c with
  | COk tk c' => exists h s, tk = mkToken (TTag h s) (c_mark c) (c_mark c') false /\
      forall h' s' r, tag_text flow t h' s' r <-> h' = h /\ s' = s /\ r = c_text c'
  | CErr e => se_problem e = SReader \/ forall h s r, ~ tag_text flow t h s r
  | CBad | CFuel => False
  end.
Proof.
  intros T. set (m := c_mark c). set (nothing := forall h s r, ~ tag_text flow t h s r). set (E := fun e => se_problem e = SReader \/ nothing).
  assert (H : hold 0 (0x21 :: t) m c) by (repeat split; [exact T|lia]).
  set (Qf := fun (tk : token) c' => exists h s, tk = mkToken (TTag h s) m (c_mark c') false /\ forall h' s' r, tag_text flow t h' s' r <-> h' = h /\ s' = s /\ r = c_text c').
  cut (wp (scan_tag flow) c Qf E).
  { unfold wp, Qf. destruct (scan_tag flow c); cbn; auto. }
  assert (HEr : forall m, E (mkSerr SReader None m)) by (left; reflexivity).
  assert (HEn : nothing -> forall p m', E (mkSerr p (Some m) m')) by (intros X p m'; right; exact X).
  unfold scan_tag. apply wp_bind. eapply wp_get_mark; [exact H|]. apply wp_bind. eapply x_cache; [exact HEr|exact H|]. intros c1 H1.
  (* the end *)
  assert (Fin : forall h s n r m2 c2, hold n r m2 c2 -> (tag_ends flow r -> tag_text flow t h s r) -> (~ tag_ends flow r -> nothing) ->
    wp (cache 1 ;;; z <- check 0 is_blankz ;; comma <- (if z then ret true else andc (ret flow) (check 0 (eqc 0x2C))) ;;
        if negb comma then err (Some m) STagEnd else e <- get_mark ;; ret (mkToken (TTag h s) m e false)) c2 Qf E).
  { intros h s n r m2 c2 H2 Y Nn. apply wp_bind. eapply x_cache; [exact HEr|exact H2|]. intros c3 H3. apply wp_bind. eapply wp_check0; [exact H3|lia|]. apply wp_bind.
    assert (Ok : tag_ends flow r -> wp (if negb true then err (Some m) STagEnd else e <- get_mark ;; ret (mkToken (TTag h s) m e false)) c3 Qf E).
    { intros Te. cbn [negb]. apply wp_bind. eapply wp_get_mark; [exact H3|]. apply wp_ret. exists h, s. rewrite (proj1 H3), (proj1 (proj2 H3)). split; [reflexivity|]. intros h' s' r'. split; [|intros (-> & -> & ->); exact (Y Te)].
      intros X. destruct (tag_unique _ _ _ _ _ _ _ _ X (Y Te)) as (-> & -> & ->). auto. }
    destruct (is_blankz (nth 0 r 0)) eqn:Z; [apply wp_ret, Ok; left; exact Z|]. apply wp_andc. apply wp_ret.
    assert (Bad : (flow = true -> nth 0 r 0 <> 0x2C) -> wp (if negb false then err (Some m) STagEnd else e <- get_mark ;; ret (mkToken (TTag h s) m e false)) c3 Qf E).
    { intros X. cbn [negb]. eapply wp_err; [exact H3|]. apply HEn, Nn. intros [Te|[Fl Te]]; [congruence|exact (X Fl Te)]. }
    destruct flow; [|apply Bad; discriminate]. eapply wp_check0; [exact H3|lia|]. unfold eqc. destruct (N.eqb_spec (nth 0 r 0) 0x2C) as [Ec|Ec]; [apply Ok; right; auto|apply Bad; auto]. }
  apply wp_bind. eapply wp_check; [exact H1|lia|cbn [length]; lia|reflexivity|]. cbn [nth]. unfold eqc at 1. apply wp_bind. destruct (N.eqb_spec (nth 0 t 0) 0x3C) as [X|X].
  - destruct (nth0_cons t) as (x & r & Et); [intros Z; rewrite Z in X; discriminate|]. rewrite Et in X, H1. cbn [nth] in X. subst x. clear H.
    apply wp_bind. eapply wp_skip; [apply (hold_le 2%nat _ _ _ _ H1); lia|]. intros c2 H2. apply wp_bind. eapply wp_skip; [exact H2|]. intros c3 H3. apply wp_bind.
    assert (Vb : forall h s r0, tag_text flow t h s r0 -> exists u v, r = u ++ 0x3E :: r0 /\ u <> [] /\ uri true u v /\ tag_ends flow r0 /\ h = [] /\ s = up_to_nul v).
    { intros h s r0 Tt. apply tag_cases in Tt as [(u & v & Eu & Rest)|(Nl & _)]; [|rewrite Et in Nl; destruct (Nl eq_refl)]. rewrite Et in Eu. injection Eu as Eu. exists u, v. auto. }
    eapply (x_uri m E nothing HEr HEn true []); [exact H3| |].
    { intros No h s r0 Tt. destruct (Vb _ _ _ Tt) as (u & v & Eu & Nu & Uu & _). eapply (No u v); [exact Eu|exact Uu|apply close_stop|auto]. }
    intros u v q m' c4 Eq Uu St Nu H4. cbn [has] in Nu. specialize (Nu eq_refl). cbn [tl app]. apply wp_bind. eapply wp_check0; [exact H4|lia|]. unfold eqc. destruct (N.eqb_spec (nth 0 q 0) 0x3E) as [Y|Y]; cbn [negb].
    + destruct (nth0_cons q) as (y & q' & ->); [intros Z; rewrite Z in Y; discriminate|]. cbn [nth] in Y. subst y. apply wp_bind. eapply wp_skip; [exact H4|]. intros c5 H5. apply wp_ret. eapply Fin; [exact H5| |].
      * intros Te. rewrite Et, Eq. apply tag_verbatim; assumption.
      * intros Nt h s r0 Tt. destruct (Vb _ _ _ Tt) as (u' & v' & Eu & Nu' & Uu' & Te & _). rewrite Eq in Eu. destruct (uri_unique _ _ _ _ _ _ _ Uu Uu' St (close_stop _) Eu) as (_ & _ & Er). injection Er as ->. contradiction.
    + eapply wp_err; [exact H4|]. apply HEn. intros h s r0 Tt. destruct (Vb _ _ _ Tt) as (u' & v' & Eu & Nu' & Uu' & Te & _). rewrite Eq in Eu. destruct (uri_unique _ _ _ _ _ _ _ Uu Uu' St (close_stop _) Eu) as (_ & _ & ->). apply Y. reflexivity.
  - apply wp_bind. clear H. assert (Ge : forall h s r0, tag_text flow t h s r0 -> exists u0 v0, t = u0 ++ r0 /\ uri false u0 v0 /\ tag_ends flow r0 /\ tag_form u0 v0 r0 h s).
    { intros h s r0 Tt. apply tag_cases in Tt as [(u & v & Eu & _)|(_ & Tt)]; [|exact Tt]. rewrite Eu in X. destruct (X eq_refl). }
    eapply (x_handle m E nothing HEr HEn false); [exact H1| | | |].
    + intros Y. destruct (Y eq_refl).
    + intros w q _ _ _ _ _ Y. discriminate.
    + intros w q m' c2 Eq F H2. injection Eq as Eq. rewrite (handle_closed w F). apply wp_bind.
      assert (Ub : uri false (w ++ [0x21]) (w ++ [0x21])) by (apply uri_app; [apply name_uri, F|constructor; [apply bang_char|constructor]]).
      assert (Ge' : forall h s r0, tag_text flow t h s r0 -> exists u v, q = u ++ r0 /\ u <> [] /\ uri false u v /\ tag_ends flow r0).
      { intros h s r0 Tt. destruct (Ge _ _ _ Tt) as (u0 & v0 & Eu & U0 & Te & Fo). destruct (uri_strip _ _ _ q _ _ _ Ub U0 (ends_stop _ _ Te)) as (u1 & v1 & E1 & E2 & U1 & E3); [rewrite <- app_assoc, <- Eu; symmetry; exact Eq|].
        exists u1, v1. split; [exact E3|]. split; [|split; assumption]. subst u0 v0. rewrite <- !app_assoc in Fo. cbn [app] in Fo. destruct Fo as [Fo|[Fo|Fo]].
        - destruct Fo as (w' & u & v & Eu' & _ & F' & Nu & _). destruct (span_unique _ w _ w' _ F F' (bang_na _) (bang_na _) Eu') as [_ Er]. injection Er as ->. exact Nu.
        - exfalso. destruct Fo as (w' & u & Eu' & F' & Na & Nb & _). assert (Eq' : w ++ 0x21 :: u1 ++ r0 = w' ++ u ++ r0) by (rewrite app_assoc, <- Eu', <- app_assoc; reflexivity). destruct (span_unique _ w _ w' _ F F' (bang_na _) Na Eq') as [_ Er]. rewrite <- Er in Nb. exact (Nb eq_refl).
        - exfalso. destruct Fo as (Z & _). exact (bang_not_nul _ _ F Z). }
      eapply (x_uri m E nothing HEr HEn false []); [exact H2| |].
      { intros No h s r0 Tt. destruct (Ge' _ _ _ Tt) as (u & v & Eu & Nu & Uu & Te). eapply (No u v); [exact Eu|exact Uu|exact (ends_stop _ _ Te)|auto]. }
      intros u v q' m3 c3 Eq' Uu St Nu H3. cbn [has] in Nu. specialize (Nu eq_refl). cbn [tl app]. apply wp_ret. eapply Fin; [exact H3| |].
      * intros Te. rewrite Eq, Eq'. apply tag_named; assumption.
      * intros Nt h s r0 Tt. destruct (Ge' _ _ _ Tt) as (u' & v' & Eu & Nu' & Uu' & Te). rewrite Eq' in Eu. destruct (uri_unique _ _ _ _ _ _ _ Uu Uu' St (ends_stop _ _ Te) Eu) as (_ & _ & ->). contradiction.
    + intros w q m' c2 Eq F Na Nb _ H2. injection Eq as Eq. rewrite (handle_open w F). apply wp_bind.
      assert (Ge' : forall h s r0, tag_text flow t h s r0 -> exists u v, q = u ++ r0 /\ uri false u v /\ tag_ends flow r0).
      { intros h s r0 Tt. destruct (Ge _ _ _ Tt) as (u0 & v0 & Eu & U0 & Te & Fo). destruct (uri_strip _ _ _ q _ _ _ (name_uri false w F) U0 (ends_stop _ _ Te)) as (u1 & v1 & E1 & E2 & U1 & E3); [rewrite <- Eu; symmetry; exact Eq|]. exists u1, v1. auto. }
      eapply (x_uri m E nothing HEr HEn false (0x21 :: w)); [exact H2| |].
      { intros No h s r0 Tt. destruct (Ge' _ _ _ Tt) as (u & v & Eu & Uu & Te). eapply (No u v); [exact Eu|exact Uu|exact (ends_stop _ _ Te)|discriminate]. }
      intros u v q' m3 c3 Eq' Uu St _ H3. cbn [tl].
      assert (Nn : ~ tag_ends flow q' -> nothing).
      { intros Nt h s r0 Tt. destruct (Ge' _ _ _ Tt) as (u' & v' & Eu & Uu' & Te). rewrite Eq' in Eu. destruct (uri_unique _ _ _ _ _ _ _ Uu Uu' St (ends_stop _ _ Te) Eu) as (_ & _ & ->). contradiction. }
      destruct (up_to_nul (w ++ v)) as [|y l] eqn:Z.
      * apply wp_ret. eapply Fin; [exact H3| |exact Nn]. intros Te. destruct w as [|y w]; [|destruct (name_not_nul (y :: w) v F); [discriminate|exact Z]]. rewrite Eq, Eq'. cbn [app]. eapply tag_bang; eassumption.
      * apply wp_ret. eapply Fin; [exact H3| |exact Nn]. intros Te. rewrite Eq, Eq', <- Z. rewrite Eq' in Na, Nb. apply tag_short; try assumption. rewrite Z. discriminate.
Qed.

(* ---- directives ---- *)
Lemma line_end_unique t r r' : line_end t r -> line_end t r' -> r = r'.
Proof.
  intros (w & q & b & -> & Lt & -> & B) (w' & q' & b' & Eq & Lt' & -> & B'). destruct (tail_unique _ _ _ _ Lt Lt' Eq) as [_ Er].
  destruct B as [[B N1]|[-> Z]], B' as [[B' N2]|[-> Z']]; cbn [app] in Er.
  - exact (proj2 (break_unique _ _ _ _ B B' Er N1 N2)).
  - exfalso. destruct (break_not_blank b r B) as [_ X]. rewrite Er, Z' in X. discriminate.
  - exfalso. destruct (break_not_blank b' r' B') as [_ X]. rewrite <- Er, Z in X. discriminate.
  - exact Er.
Qed.
Lemma digit_stop q : nth 0 q 0 = 0x2E -> is_digit (nth 0 q 0) = false.
Proof. intros ->. reflexivity. Qed.
Lemma blankz_stop wide r : is_blankz (nth 0 r 0) = true -> uri_stops wide r.
Proof. unfold uri_stops. intros H. unfold uri_class. destruct wide; cbn [existsb andb]; cls. Qed.
Lemma uri_not_blank wide u v r : uri wide u v -> u <> [] -> is_blank (nth 0 (u ++ r) 0) = false.
Proof. intros U N0. pose proof (uri_first _ _ _ r U N0) as X. unfold uri_class in X. cbn [existsb] in X. destruct wide; cls. Qed.
Lemma number_first d n q : number d n -> is_digit (nth 0 (d ++ q) 0) = true.
Proof. intros (N0 & _ & F & _). destruct F; [destruct (N0 eq_refl)|assumption]. Qed.
Lemma digit_blank x : is_digit x = true -> is_blank x = false /\ is_blankz x = false.
Proof. intros H. split; cls. Qed.
Lemma number_unique d n d' n' : number d n -> number d' n' -> d = d' -> n = n'.
Proof. intros (_ & _ & _ & ->) (_ & _ & _ & ->) ->. reflexivity. Qed.
Definition directive_handle (h : list N) : Prop := h = [0x21] \/ exists k, name k /\ h = 0x21 :: k ++ [0x21].
Lemma blank_na x : is_blank x = true -> is_alpha x = false /\ x <> 0x21.
Proof. intros H. split; [cls|intros ->; discriminate]. Qed.
Lemma blanks_head w q : w <> [] -> all_blank w -> is_blank (nth 0 (w ++ q) 0) = true.
Proof. intros N0 F. destruct F; [destruct (N0 eq_refl)|assumption]. Qed.
Lemma handle_unique h q h' q' : directive_handle h -> directive_handle h' -> is_blank (nth 0 q 0) = true -> is_blank (nth 0 q' 0) = true -> h ++ q = h' ++ q' -> h = h' /\ q = q'.
Proof.
  intros H H' B B' Eq. destruct (blank_na _ B) as [Na Nb], (blank_na _ B') as [Na' Nb'].
  destruct H as [->|(k & F & ->)], H' as [->|(k' & F' & ->)]; cbn [app] in Eq; injection Eq as Eq.
  - auto.
  - exfalso. rewrite <- app_assoc in Eq. cbn [app] in Eq. destruct (span_unique is_alpha [] q k' _ (Forall_nil _) F' Na (bang_na _) Eq) as [_ ->]. exact (Nb eq_refl).
  - exfalso. rewrite <- app_assoc in Eq. cbn [app] in Eq. destruct (span_unique is_alpha [] q' k _ (Forall_nil _) F Na' (bang_na _) (eq_sym Eq)) as [_ ->]. exact (Nb' eq_refl).
  - rewrite <- !app_assoc in Eq. cbn [app] in Eq. destruct (span_unique _ k _ k' _ F F' (bang_na _) (bang_na _) Eq) as [-> Er]. injection Er as ->. auto.
Qed.
(* what stands behind the name *)
Definition version_text (t : list N) (n1 n2 : N) (r : list N) : Prop :=
  exists w d1 d2, t = w ++ d1 ++ 0x2E :: d2 ++ r /\ w <> [] /\ all_blank w /\ number d1 n1 /\ number d2 n2 /\ is_digit (nth 0 r 0) = false.
Definition tagdir_text (t h p r : list N) : Prop :=
  exists w w' u v, t = w ++ h ++ w' ++ u ++ r /\ w <> [] /\ all_blank w /\ directive_handle h /\ w' <> [] /\ all_blank w' /\ u <> [] /\ uri true u v /\ is_blankz (nth 0 r 0) = true /\ p = up_to_nul v.
Lemma directive_cases t d r : directive_text t d r <->
  (exists t1 n1 n2, t = yaml_name ++ t1 /\ version_text t1 n1 n2 r /\ d = TVersion n1 n2) \/ (exists t1 h p, t = tag_name ++ t1 /\ tagdir_text t1 h p r /\ d = TTagDirective h p).
Proof.
  split.
  - destruct 1 as [w d1 n1 d2 n2 r N0 B A1 A2 Z|w h w' u v r N0 B Hh N1 B' Nu U Z].
    + left. eexists _, n1, n2. split; [reflexivity|]. split; [|reflexivity]. exists w, d1, d2. auto 8.
    + right. eexists _, h, _. split; [reflexivity|]. split; [|reflexivity]. exists w, w', u, v. auto 12.
  - intros [(t1 & n1 & n2 & -> & (w & d1 & d2 & -> & N0 & B & A1 & A2 & Z) & ->)|(t1 & h & p & -> & (w & w' & u & v & -> & N0 & B & Hh & N1 & B' & Nu & U & Z & ->) & ->)].
    + apply directive_version; assumption.
    + apply directive_tag; assumption.
Qed.
Lemma version_unique t n1 n2 r n1' n2' r' : version_text t n1 n2 r -> version_text t n1' n2' r' -> n1 = n1' /\ n2 = n2' /\ r = r'.
Proof.
  intros (w & d1 & d2 & -> & N0 & B & A1 & A2 & Z) (w' & d1' & d2' & Eq & N0' & B' & A1' & A2' & Z').
  destruct (span_unique _ w _ w' _ B B' (proj1 (digit_blank _ (number_first _ _ _ A1))) (proj1 (digit_blank _ (number_first _ _ _ A1'))) Eq) as [_ E1].
  destruct (span_unique is_digit d1 (0x2E :: d2 ++ r) d1' (0x2E :: d2' ++ r') (proj1 (proj2 (proj2 A1))) (proj1 (proj2 (proj2 A1'))) eq_refl eq_refl E1) as [Ed E2]. injection E2 as E2.
  destruct (span_unique is_digit d2 r d2' r' (proj1 (proj2 (proj2 A2))) (proj1 (proj2 (proj2 A2'))) Z Z' E2) as [Ed2 Er]. split; [eapply number_unique; eassumption|]. split; [eapply number_unique; eassumption|exact Er].
Qed.
Lemma handle_not_blank h q : directive_handle h -> is_blank (nth 0 (h ++ q) 0) = false.
Proof. intros [->|(k & _ & ->)]; reflexivity. Qed.
Lemma tagdir_unique t h p r h' p' r' : tagdir_text t h p r -> tagdir_text t h' p' r' -> h = h' /\ p = p' /\ r = r'.
Proof.
  intros (w & w1 & u & v & -> & N0 & B & Hh & N1 & B1 & Nu & U & Z & ->) (w' & w1' & u' & v' & Eq & N0' & B' & Hh' & N1' & B1' & Nu' & U' & Z' & ->).
  destruct (span_unique _ w _ w' _ B B' (handle_not_blank _ _ Hh) (handle_not_blank _ _ Hh') Eq) as [_ E1].
  destruct (handle_unique _ _ _ _ Hh Hh' (blanks_head _ _ N1 B1) (blanks_head _ _ N1' B1') E1) as [-> E2].
  destruct (span_unique _ w1 _ w1' _ B1 B1' (uri_not_blank _ _ _ _ U Nu) (uri_not_blank _ _ _ _ U' Nu') E2) as [_ E3].
  destruct (uri_unique _ _ _ _ _ _ _ U U' (blankz_stop _ _ Z) (blankz_stop _ _ Z') E3) as (_ & -> & ->). auto.
Qed.
Lemma directive_unique t d r d' r' : directive_text t d r -> directive_text t d' r' -> d = d' /\ r = r'.
Proof.
  intros A A'. apply directive_cases in A. apply directive_cases in A'.
  destruct A as [(t1 & n1 & n2 & -> & V & ->)|(t1 & h & p & -> & V & ->)], A' as [(t1' & n1' & n2' & Eq & V' & ->)|(t1' & h' & p' & Eq & V' & ->)]; try discriminate.
  - apply app_inv_head in Eq. subst t1'. destruct (version_unique _ _ _ _ _ _ _ V V') as (-> & -> & ->). auto.
  - apply app_inv_head in Eq. subst t1'. destruct (tagdir_unique _ _ _ _ _ _ _ V V') as (-> & -> & ->). auto.
Qed.

Section Directives.
Variables (start : mark) (E : serr -> Prop) (nothing : Prop).
Hypothesis HEr : forall m, E (mkSerr SReader None m).
Hypothesis HEn : nothing -> forall p m, E (mkSerr p (Some start) m).
Set Default Proof Using "All".
Lemma x_line_stop p n t m c (Q : unit -> cur -> Prop) : hold n t m c -> ((forall r, ~ line_end t r) -> nothing) ->
  (forall r m' c', line_end t r -> hold 0 r m' c' -> Q tt c') -> wp (scan_line_end start p) c Q E.
Proof.
  intros H Hn HQ. unfold scan_line_end. apply wp_bind. eapply x_cache; [exact HEr|exact H|]. intros c1 H1.
  apply wp_bind. eapply x_skip_while; [exact HEr|exact H1|lia|intros x X ->; discriminate|]. intros bl t1 c2 Et Fb H2 Nb.
  assert (K : forall cm t2 m2 c3, t1 = cm ++ t2 -> (cm = [] /\ nth 0 t2 0 <> 0x23 \/ exists s, cm = 0x23 :: s /\ Forall (fun x => is_breakz x = false) s /\ is_breakz (nth 0 t2 0) = true) ->
     hold 1 t2 m2 c3 ->
     wp (e <- check 0 is_breakz ;; if negb e then err (Some start) p else b <- check 0 is_break ;; if b then cache 2 ;;; skip_line else ret tt) c3 Q E).
  { intros cm t2 m2 c3 E1 Hc H3.
    assert (LT : line_tail (bl ++ cm) t2) by (exists bl, cm; split; [reflexivity|]; split; [exact Fb|]; split; [rewrite <- E1; exact Nb|exact Hc]).
    assert (E0 : t = (bl ++ cm) ++ t2) by (rewrite Et, E1, app_assoc; reflexivity).
    apply wp_bind. eapply wp_check0; [exact H3|lia|]. destruct (is_breakz (nth 0 t2 0)) eqn:Bz; cbn [negb].
    2:{ eapply wp_err; [exact H3|]. apply HEn, Hn. intros r (w & q & b & E2 & Lt & -> & B). rewrite E0 in E2. destruct (tail_unique _ _ _ _ LT Lt E2) as [_ ->].
        destruct B as [[B _]|[-> Z]]; [destruct (break_not_blank b r B) as [_ X]; unfold is_breakz in Bz; rewrite X in Bz; discriminate|cbn [app] in Bz; rewrite Z in Bz; discriminate]. }
    apply wp_bind. eapply wp_check0; [exact H3|lia|]. destruct (is_break (nth 0 t2 0)) eqn:Bk.
    - apply wp_bind. eapply x_cache; [exact HEr|exact H3|]. intros c4 H4. eapply wp_skip_line; [exact H4|lia|exact Bk|]. intros t3 m3 c5 S5 H5.
      destruct (line_step_break _ _ _ _ S5) as (b & E3 & B3 & N3 & C3). apply (HQ t3 m3); [|eapply hold_le; [exact H5|lia]]. exists (bl ++ cm), t2, b. split; [exact E0|]. split; [exact LT|]. split; [exact E3|]. left. auto.
    - apply wp_ret. apply (HQ t2 m2); [|eapply hold_le; [exact H3|lia]]. exists (bl ++ cm), t2, []. split; [exact E0|]. split; [exact LT|]. split; [reflexivity|]. right. split; [reflexivity|].
      unfold is_breakz in Bz. rewrite Bk in Bz. apply N.eqb_eq. exact Bz. }
  apply wp_bind. eapply wp_check0; [exact H2|lia|]. unfold eqc. destruct (N.eqb_spec (nth 0 t1 0) 0x23) as [X|X]; apply wp_bind.
  - eapply x_skip_while; [exact HEr|exact H2|lia|intros x Hx ->; discriminate|]. intros w t2 c3 E2 F2 H3 N3. destruct w as [|x w].
    { cbn [app] in E2. subst t2. rewrite X in N3. discriminate. }
    rewrite E2 in X. cbn in X. subst x. apply Forall_inv_tail in F2 as F2'.
    assert (F3 : Forall (fun x => is_breakz x = false) w) by (eapply Forall_impl; [|exact F2']; intros x Hx; cbv beta in *; destruct (is_breakz x); [discriminate|reflexivity]).
    apply (K (0x23 :: w) t2 (next_column (nlen (0x23 :: w)) (next_column (nlen bl) m)) c3 E2); [right; exists w; split; [reflexivity|]; split; [exact F3|destruct (is_breakz (nth 0 t2 0)); [reflexivity|discriminate]]|exact H3].
  - apply wp_ret. apply (K [] t1 (next_column (nlen bl) m) c2 eq_refl); [left; auto|exact H2].
Qed.
Lemma x_number n t m c (Q : N -> cur -> Prop) : hold n t m c -> ((forall d v q, t = d ++ q -> number d v -> is_digit (nth 0 q 0) = false -> False) -> nothing) ->
  (forall d v q m' c', t = d ++ q -> number d v -> is_digit (nth 0 q 0) = false -> hold 1 q m' c' -> Q v c') -> wp (scan_version_number start) c Q E.
Proof.
  intros H Hn HQ. unfold scan_version_number. apply wp_bind. eapply x_cache; [exact HEr|exact H|]. intros c1 H1. apply wp_bind.
  apply (wp_loop (fun (a : N * nat) c => exists d t1 m1, t = d ++ t1 /\ Forall (fun x => is_digit x = true) d /\ (length d <= 9)%nat /\ hold 1 t1 m1 c /\ a = (fold_left (fun n x => n * 10 + (x - 0x30)) d 0, length d))).
  { exists [], t, m. split; [reflexivity|]. split; [constructor|]. split; [cbn; lia|]. split; [eapply hold_le; [exact H1|lia]|reflexivity]. }
  clear H H1 c c1. intros ? c (d & t1 & m1 & E0 & F & L & H & ->). apply wp_bind. eapply wp_peek0; [exact H|lia|]. destruct (is_digit (nth 0 t1 0)) eqn:D.
  - destruct (nth0_cons t1) as (x & r & ->); [intros Z; rewrite Z in D; discriminate|]. cbn [nth] in D. unfold MAX_NUMBER_LENGTH. destruct (Nat.ltb_spec 9 (S (length d))) as [L9|L9].
    + eapply wp_err; [exact H|]. apply HEn, Hn. intros d' v q Eq (_ & L' & F' & _) Z. rewrite E0 in Eq.
      assert (X : forall l, Forall (fun x => is_digit x = true) l -> forall l' y q q', is_digit y = true -> is_digit (nth 0 q' 0) = false -> l ++ y :: q = l' ++ q' -> (length l < length l')%nat).
      { clear. induction 1 as [|z l Zd Fl IH]; intros l' y q q' Y Z Eq; destruct l' as [|z' l']; cbn [app] in Eq.
        - rewrite <- Eq in Z. cbn [nth] in Z. congruence.
        - cbn [length]. lia.
        - rewrite <- Eq in Z. cbn [nth] in Z. congruence.
        - injection Eq as _ Eq. specialize (IH _ _ _ _ Y Z Eq). cbn [length]. lia. }
      specialize (X _ F _ _ _ _ D Z Eq). lia.
    + apply wp_bind. eapply wp_skip; [exact H|]. intros c2 H2. apply wp_bind. eapply x_cache; [exact HEr|exact H2|]. intros c3 H3. apply wp_ret. split.
      * exists (d ++ [x]), r, (next_column 1 m1). split; [rewrite E0, <- app_assoc; reflexivity|]. split; [apply Forall_app; split; [exact F|constructor; [exact D|constructor]]|]. split; [rewrite app_length; cbn [length]; lia|]. split; [eapply hold_le; [exact H3|lia]|].
        rewrite fold_left_app, app_length. cbn [fold_left length nth]. unfold as_digit. f_equal. lia.
      * rewrite (proj1 H3), (proj1 H). cbn [length]. lia.
  - apply wp_ret. cbn [fst snd]. destruct d as [|x d].
    + cbn [length]. eapply wp_err; [exact H|]. apply HEn, Hn. intros d' v q Eq A Z. pose proof (number_first _ _ q A) as X. rewrite <- Eq, E0 in X. cbn [app] in X. congruence.
    + cbn [length]. apply wp_ret. apply (HQ (x :: d) _ t1 m1); [exact E0| |exact D|exact H]. split; [discriminate|]. auto.
Qed.
Lemma x_version n t m c (Q : N * N -> cur -> Prop) : hold n t m c -> is_blankz (nth 0 t 0) = true -> ((forall n1 n2 r, ~ version_text t n1 n2 r) -> nothing) ->
  (forall n1 n2 r m' c', version_text t n1 n2 r -> hold 1 r m' c' -> Q (n1, n2) c') -> wp (scan_version_value start) c Q E.
Proof.
  intros H Bz Hn HQ. unfold scan_version_value. apply wp_bind. eapply x_cache; [exact HEr|exact H|]. intros c1 H1.
  apply wp_bind. eapply x_skip_while; [exact HEr|exact H1|lia|intros x X ->; discriminate|]. intros w t1 c2 Et Fb H2 Nb. apply wp_bind.
  assert (G1 : forall n1 n2 r, version_text t n1 n2 r -> exists d1 d2, t1 = d1 ++ 0x2E :: d2 ++ r /\ number d1 n1 /\ number d2 n2 /\ is_digit (nth 0 r 0) = false).
  { intros n1 n2 r (w' & d1 & d2 & Eq & N0 & B & A1 & A2 & Z). rewrite Et in Eq. destruct (span_unique _ w _ w' _ Fb B Nb (proj1 (digit_blank _ (number_first _ _ _ A1))) Eq) as [_ ->]. exists d1, d2. auto. }
  eapply x_number; [exact H2| |].
  { intros No. apply Hn. intros n1 n2 r V. destruct (G1 _ _ _ V) as (d1 & d2 & Eq & A1 & A2 & Z). exact (No _ _ _ Eq A1 eq_refl). }
  intros d1 n1 q m3 c3 E1 A1 Z1 H3. apply wp_bind. eapply wp_check0; [exact H3|lia|].
  assert (G2 : forall k1 k2 r, version_text t k1 k2 r -> exists d2, q = 0x2E :: d2 ++ r /\ number d2 k2 /\ is_digit (nth 0 r 0) = false).
  { intros k1 k2 r V. destruct (G1 _ _ _ V) as (d' & d2 & Eq & A1' & A2 & Z). rewrite E1 in Eq. destruct (span_unique is_digit d1 q d' (0x2E :: d2 ++ r) (proj1 (proj2 (proj2 A1))) (proj1 (proj2 (proj2 A1'))) Z1 eq_refl Eq) as [_ ->]. exists d2. auto. }
  unfold eqc. destruct (N.eqb_spec (nth 0 q 0) 0x2E) as [X|X]; cbn [negb].
  2:{ eapply wp_err; [exact H3|]. apply HEn, Hn. intros k1 k2 r V. destruct (G2 _ _ _ V) as (d2 & -> & _). exact (X eq_refl). }
  destruct (nth0_cons q) as (x & q' & ->); [intros Y; rewrite Y in X; discriminate|]. cbn [nth] in X. subst x. apply wp_bind. eapply wp_skip; [exact H3|]. intros c4 H4. apply wp_bind. eapply x_number; [exact H4| |].
  { intros No. apply Hn. intros k1 k2 r V. destruct (G2 _ _ _ V) as (d2 & Eq & A2 & Z). injection Eq as Eq. exact (No _ _ _ Eq A2 Z). }
  intros d2 n2 r m5 c5 E2 A2 Z2 H5. apply wp_ret. eapply HQ; [|exact H5]. exists w, d1, d2. split; [rewrite Et, E1, E2; reflexivity|]. split; [|auto].
  intros ->. cbn [app] in Et. rewrite Et, E1 in Bz. rewrite (proj2 (digit_blank _ (number_first _ _ _ A1))) in Bz. discriminate.
Qed.
Lemma x_tagdir n t m c (Q : list N * list N -> cur -> Prop) : hold n t m c -> is_blankz (nth 0 t 0) = true -> ((forall h p r, ~ tagdir_text t h p r) -> nothing) ->
  (forall h p r m' c', tagdir_text t h p r -> hold 1 r m' c' -> Q (h, p) c') -> wp (scan_tag_directive_value start) c Q E.
Proof.
  intros H Bz Hn HQ. unfold scan_tag_directive_value. apply wp_bind. eapply x_cache; [exact HEr|exact H|]. intros c1 H1.
  apply wp_bind. eapply x_skip_while; [exact HEr|exact H1|lia|intros x X ->; discriminate|]. intros w t1 c2 Et Fb H2 Nb. apply wp_bind.
  assert (G1 : forall h p r, tagdir_text t h p r -> exists w' u v, t1 = h ++ w' ++ u ++ r /\ directive_handle h /\ w' <> [] /\ all_blank w' /\ u <> [] /\ uri true u v /\ is_blankz (nth 0 r 0) = true).
  { intros h p r (w' & w1 & u & v & Eq & N0 & B & Hh & N1 & B1 & Nu & U & Z & ->). rewrite Et in Eq. destruct (span_unique _ w _ w' _ Fb B Nb (handle_not_blank _ _ Hh) Eq) as [_ ->]. exists w1, u, v. auto 8. }
  assert (K : forall h n q m3 c3, t1 = h ++ q -> directive_handle h -> hold n q m3 c3 -> (forall h' p r, tagdir_text t h' p r -> exists w' u, q = w' ++ u ++ r /\ w' <> [] /\ all_blank w') ->
    wp (cache 1 ;;; b <- check 0 is_blank ;; if negb b then err (Some start) STagDirectiveSpace else
        skip_while is_blank ;;; prefix <- scan_tag_uri true [] start ;; cache 1 ;;; z <- check 0 is_blankz ;;
        if negb z then err (Some start) STagDirectiveEnd else ret (h, prefix)) c3 Q E).
  { intros h n0 q m3 c3 E1 Hh H3 Or. apply wp_bind. eapply x_cache; [exact HEr|exact H3|]. intros c4 H4. apply wp_bind. eapply wp_check0; [exact H4|lia|]. destruct (is_blank (nth 0 q 0)) eqn:Bq; cbn [negb].
    2:{ eapply wp_err; [exact H4|]. apply HEn, Hn. intros h' p r V. destruct (Or _ _ _ V) as (w' & u & -> & N0 & B). rewrite (blanks_head _ _ N0 B) in Bq. discriminate. }
    apply wp_bind. eapply x_skip_while; [exact HEr|exact H4|lia|intros x X ->; discriminate|]. intros w1 t2 c5 Eq Fb1 H5 Nb1. apply wp_bind.
    assert (G2 : forall h' p r, tagdir_text t h' p r -> exists u v, t2 = u ++ r /\ u <> [] /\ uri true u v /\ is_blankz (nth 0 r 0) = true).
    { intros h' p r V. destruct (G1 _ _ _ V) as (w' & u & v & Ex & Hh' & N1 & B1 & Nu & U & Z). rewrite E1 in Ex. destruct (handle_unique _ _ _ _ Hh Hh' Bq (blanks_head _ _ N1 B1) Ex) as [_ Ey]. rewrite Eq in Ey.
      destruct (span_unique _ w1 _ w' _ Fb1 B1 Nb1 (uri_not_blank _ _ _ _ U Nu) Ey) as [_ ->]. exists u, v. auto. }
    eapply (x_uri start E nothing HEr HEn true []); [exact H5| |].
    { intros No. apply Hn. intros h' p r V. destruct (G2 _ _ _ V) as (u & v & Ex & Nu & U & Z). eapply (No u v); [exact Ex|exact U|exact (blankz_stop _ _ Z)|auto]. }
    intros u v r m6 c6 Eu U St Nu H6. cbn [has] in Nu. specialize (Nu eq_refl). cbn [tl app]. apply wp_bind. eapply x_cache; [exact HEr|exact H6|]. intros c7 H7. apply wp_bind. eapply wp_check0; [exact H7|lia|]. destruct (is_blankz (nth 0 r 0)) eqn:Z; cbn [negb].
    - apply wp_ret. apply (HQ _ _ r m6); [|eapply hold_le; [exact H7|lia]]. exists w, w1, u, v. rewrite Et, E1, Eq, Eu. split; [reflexivity|].
      split. { intros ->. cbn [app] in Et. rewrite Et, E1 in Bz. destruct Hh as [->|(k & _ & ->)]; discriminate. }
      split; [exact Fb|]. split; [exact Hh|]. split. { intros ->. cbn [app] in Eq. rewrite Eq in Bq. congruence. } auto 8.
    - eapply wp_err; [exact H7|]. apply HEn, Hn. intros h' p r' V. destruct (G2 _ _ _ V) as (u' & v' & Ex & Nu' & U' & Z'). rewrite Eu in Ex. destruct (uri_unique _ _ _ _ _ _ _ U U' St (blankz_stop _ _ Z') Ex) as (_ & _ & ->). congruence. }
  (* the handle of another reading *)
  assert (G3 : forall k q, t1 = 0x21 :: k ++ q -> name k -> is_alpha (nth 0 q 0) = false -> nth 0 q 0 <> 0x21 -> forall h p r, tagdir_text t h p r -> k = [] /\ exists w' u v, q = w' ++ u ++ r /\ w' <> [] /\ all_blank w' /\ u <> [] /\ uri true u v).
  { intros k q Ek F Na Nx h p r V. destruct (G1 _ _ _ V) as (w' & u & v & Ex & Hh' & N1 & B1 & Nu & U & Z). rewrite Ek in Ex. destruct Hh' as [->|(k' & F' & ->)]; cbn [app] in Ex; injection Ex as Ex.
    - destruct (span_unique is_alpha k q [] _ F (Forall_nil _) Na (proj1 (blank_na _ (blanks_head w' (u ++ r) N1 B1))) Ex) as [-> ->]. split; [reflexivity|]. exists w', u, v. auto 6.
    - exfalso. rewrite <- app_assoc in Ex. cbn [app] in Ex. destruct (span_unique is_alpha k q k' _ F F' Na (bang_na _) Ex) as [_ ->]. exact (Nx eq_refl). }
  eapply (x_handle start E nothing HEr HEn true); [exact H2| | | |].
  - intros X. apply Hn. intros h p r V. destruct (G1 _ _ _ V) as (w' & u & v & Ex & Hh' & _). rewrite Ex in X. destruct Hh' as [->|(k & _ & ->)]; exact (X eq_refl).
  - intros k q Ek F Na Nx Nk _. apply Hn. intros h p r V. destruct (G3 _ _ Ek F Na Nx _ _ _ V) as [X _]. contradiction.
  - intros k q m' c3 Ek F H3. eapply K; [|right; exists k; split; [exact F|reflexivity]|exact H3|].
    + rewrite Ek. cbn [app]. rewrite <- app_assoc. reflexivity.
    + intros h' p r V. destruct (G1 _ _ _ V) as (w' & u & v & Ex & Hh' & N1 & B1 & Nu & U & Z). exists w', u. split; [|auto]. rewrite Ek in Ex. destruct Hh' as [->|(k' & F' & ->)]; cbn [app] in Ex; injection Ex as Ex.
      * exfalso. destruct (blank_na _ (blanks_head w' (u ++ r) N1 B1)) as [Na Nx]. destruct (span_unique is_alpha k _ [] _ F (Forall_nil _) (bang_na _) Na Ex) as [_ Y]. rewrite <- Y in Nx. exact (Nx eq_refl).
      * rewrite <- app_assoc in Ex. cbn [app] in Ex. destruct (span_unique is_alpha k _ k' _ F F' (bang_na _) (bang_na _) Ex) as [_ Y]. injection Y as ->. reflexivity.
  - intros k q m' c3 Ek F Na Nx Dk H3. specialize (Dk eq_refl). subst k. eapply K; [exact Ek|left; reflexivity|exact H3|]. intros h' p r V. destruct (G3 _ _ Ek F Na Nx _ _ _ V) as (_ & w' & u & v & Eq & N1 & B1 & _). exists w', u. auto.
Qed.
End Directives.
Theorem directive_exact c x t : (1 <= c_unread c)%nat -> c_text c = x :: t ->
  match scan_directive c with
  | COk tk c' => exists d e, tk = mkToken d (c_mark c) e false /\
      forall d' r, (exists r1, directive_text t d' r1 /\ line_end r1 r) <-> d' = d /\ r = c_text c'
  | CErr e => se_problem e = SReader \/ forall d r1 r, ~ (directive_text t d r1 /\ line_end r1 r)
  | CBad | CFuel => False
  end.
Proof.
  intros U T. set (m := c_mark c). set (nothing := forall d r1 r, ~ (directive_text t d r1 /\ line_end r1 r)). set (E := fun e => se_problem e = SReader \/ nothing).
  assert (H : hold 1 (x :: t) m c) by (repeat split; [exact T|lia]).
  set (Qf := fun (tk : token) c' => exists d e, tk = mkToken d m e false /\ forall d' r, (exists r1, directive_text t d' r1 /\ line_end r1 r) <-> d' = d /\ r = c_text c').
  cut (wp scan_directive c Qf E).
  { unfold wp, Qf. destruct (scan_directive c); cbn; auto. }
  assert (HEr : forall m, E (mkSerr SReader None m)) by (left; reflexivity).
  assert (HEn : nothing -> forall p m', E (mkSerr p (Some m) m')) by (intros X p m'; right; exact X).
  unfold scan_directive. apply wp_bind. eapply wp_get_mark; [exact H|]. apply wp_bind. eapply wp_skip; [exact H|]. intros c1 H1.
  assert (Fin : forall d e n r1 m2 c2, hold n r1 m2 c2 -> directive_text t d r1 -> wp (scan_line_end m SDirectiveEnd ;;; ret (mkToken d m e false)) c2 Qf E).
  { intros d e n r1 m2 c2 H2 D. apply wp_bind. eapply (x_line_stop m E nothing HEr HEn); [exact H2| |].
    - intros No d' r1' r [D' Le]. destruct (directive_unique _ _ _ _ _ D D') as [_ <-]. exact (No _ Le).
    - intros r m3 c3 Le H3. apply wp_ret. exists d, e. split; [reflexivity|]. rewrite (proj1 H3). intros d' r'. split.
      + intros (r1' & D' & Le'). destruct (directive_unique _ _ _ _ _ D D') as [-> <-]. split; [reflexivity|]. eapply line_end_unique; eassumption.
      + intros (-> & ->). exists r1. auto. }
  apply wp_bind. unfold scan_directive_name. apply wp_bind. eapply x_cache; [exact HEr|exact H1|]. intros c2 H2.
  apply wp_bind. eapply x_read_while; [exact HEr|exact H2|lia|intros y Y; split; [intros ->; discriminate|clear -Y; cls]|]. intros w q c3 Eq F H3 Na. rewrite (name_utf8 w F). cbn [app].
  assert (Nm : forall d r1, directive_text t d r1 -> is_blankz (nth 0 q 0) = true /\ (w = yaml_name /\ (exists n1 n2, version_text q n1 n2 r1) \/ w = tag_name /\ exists h p, tagdir_text q h p r1)).
  { intros d r1 D. apply directive_cases in D as [(t1 & n1 & n2 & Et & V & _)|(t1 & h & p & Et & V & _)].
    - assert (Bl : is_blank (nth 0 t1 0) = true) by (destruct V as (w' & d1 & d2 & -> & N0 & B & _); apply blanks_head; assumption). rewrite Eq in Et. assert (Fy : Forall (fun x => is_alpha x = true) yaml_name) by (repeat constructor).
      destruct (span_unique _ w _ yaml_name _ F Fy Na (proj1 (blank_na _ Bl)) Et) as [-> ->]. split; [unfold is_blankz; rewrite Bl; reflexivity|]. left. split; [reflexivity|]. exists n1, n2. exact V.
    - assert (Bl : is_blank (nth 0 t1 0) = true) by (destruct V as (w' & w1 & u & v & -> & N0 & B & _); apply blanks_head; assumption). rewrite Eq in Et. assert (Fy : Forall (fun x => is_alpha x = true) tag_name) by (repeat constructor).
      destruct (span_unique _ w _ tag_name _ F Fy Na (proj1 (blank_na _ Bl)) Et) as [-> ->]. split; [unfold is_blankz; rewrite Bl; reflexivity|]. right. split; [reflexivity|]. exists h, p. exact V. }
  destruct w as [|y w].
  { eapply wp_err; [exact H3|]. apply HEn. intros d r1 r [D _]. destruct (Nm _ _ D) as [_ [[X _]|[X _]]]; discriminate. }
  apply wp_bind. eapply wp_check0; [exact H3|lia|]. destruct (is_blankz (nth 0 q 0)) eqn:Bz; cbn [negb].
  2:{ eapply wp_err; [exact H3|]. apply HEn. intros d r1 r [D _]. destruct (Nm _ _ D) as [X _]. discriminate. }
  apply wp_ret. apply wp_bind. destruct (str_eqb_spec (y :: w) yaml_name) as [X|X].
  - apply wp_bind. eapply (x_version m E nothing HEr HEn); [exact H3|exact Bz| |].
    { intros No d r1 r [D _]. destruct (Nm _ _ D) as [_ [(_ & n1 & n2 & V)|(Y & _)]]; [exact (No _ _ _ V)|rewrite X in Y; discriminate]. }
    intros n1 n2 r m4 c4 V H4. apply wp_bind. eapply wp_get_mark; [exact H4|]. apply wp_ret. cbn [fst snd]. eapply Fin; [exact H4|]. apply directive_cases. left. exists q, n1, n2. split; [rewrite <- X; exact Eq|auto].
  - destruct (str_eqb_spec (y :: w) tag_name) as [Y|Y].
    + apply wp_bind. eapply (x_tagdir m E nothing HEr HEn); [exact H3|exact Bz| |].
      { intros No d r1 r [D _]. destruct (Nm _ _ D) as [_ [(Z & _)|(_ & h & p & V)]]; [contradiction|exact (No _ _ _ V)]. }
      intros h p r m4 c4 V H4. apply wp_bind. eapply wp_get_mark; [exact H4|]. apply wp_ret. cbn [fst snd]. eapply Fin; [exact H4|]. apply directive_cases. right. exists q, h, p. split; [rewrite <- Y; exact Eq|auto].
    + eapply wp_err; [exact H3|]. apply HEn. intros d r1 r [D _]. destruct (Nm _ _ D) as [_ [(Z & _)|(Z & _)]]; contradiction.
Qed.
