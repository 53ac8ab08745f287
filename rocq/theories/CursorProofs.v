(* A weakest-precondition calculus for the cursor monad, and the lemmas about
   its primitives. *)
From Verif Require Import Base ReaderModel Utf8Spec CharSpec Types CursorModel.

(* Consuming characters one by one, line breaks as a whole. *)
Inductive adv : list N -> mark -> list N -> mark -> Prop :=
| adv_refl t m : adv t m t m
| adv_char x t m t' m' : is_break x = false -> adv t (next_column 1 m) t' m' -> adv (x :: t) m t' m'
| adv_crlf t m t' m' : adv t (next_line 2 m) t' m' -> adv (0xD :: 0xA :: t) m t' m'
| adv_line x t m t' m' : is_break x = true -> (x =? 0xD) && (nth 0 t 0 =? 0xA) = false ->
    adv t (next_line 1 m) t' m' -> adv (x :: t) m t' m'.

Lemma adv_trans t m t1 m1 t2 m2 : adv t m t1 m1 -> adv t1 m1 t2 m2 -> adv t m t2 m2.
Proof. induction 1; intros; auto; econstructor; eauto; fail. Qed.
Lemma adv_len t m t' m' : adv t m t' m' -> (length t' <= length t)%nat.
Proof. induction 1; cbn [length] in *; lia. Qed.
Lemma adv_one x t m : is_break x = false -> adv (x :: t) m t (next_column 1 m).
Proof. intros. constructor; auto. constructor. Qed.

Definition wp {A} (m : cm A) (c : cur) (Q : A -> cur -> Prop) (E : serr -> Prop) : Prop :=
  match m c with COk a c' => Q a c' | CErr e => E e | CBad => False | CFuel => False end.

Lemma wp_bind {A B} (m : cm A) (k : A -> cm B) c Q E :
  wp m c (fun a c' => wp (k a) c' Q E) E -> wp (bind m k) c Q E.
Proof. unfold wp, bind. destruct (m c); auto. Qed.
Lemma wp_ret {A} (a : A) c (Q : A -> cur -> Prop) E : Q a c -> wp (ret a) c Q E.
Proof. auto. Qed.
Lemma wp_mono {A} (m : cm A) c (Q Q' : A -> cur -> Prop) (E E' : serr -> Prop) :
  wp m c Q E -> (forall a c', Q a c' -> Q' a c') -> (forall e, E e -> E' e) -> wp m c Q' E'.
Proof. unfold wp. destruct (m c); auto. Qed.

Lemma wp_loop_n {A B} (I : A -> cur -> Prop) (body : A -> cm (A + B)) Q E :
  (forall a c, I a c ->
     wp (body a) c (fun r c' => match r with
                                | inl a' => I a' c' /\ (length (c_text c') < length (c_text c))%nat
                                | inr b => Q b c'
                                end) E) ->
  forall n a c, (length (c_text c) < n)%nat -> I a c -> wp (loop_n n body a) c Q E.
Proof.
  intros H. induction n as [|n IH]; intros a c L Ha; [lia|].
  specialize (H a c Ha). unfold wp in *. cbn [loop_n].
  destruct (body a c) as [[a'|b] c'|e| |]; auto.
  destruct H as [H1 H2]. apply IH; auto. lia.
Qed.
Lemma wp_loop {A B} (I : A -> cur -> Prop) (body : A -> cm (A + B)) a c Q E :
  I a c ->
  (forall a c, I a c ->
     wp (body a) c (fun r c' => match r with
                                | inl a' => I a' c' /\ (length (c_text c') < length (c_text c))%nat
                                | inr b => Q b c'
                                end) E) ->
  wp (loop body a) c Q E.
Proof. intros Ha H. unfold loop, wp. apply (wp_loop_n I body Q E H (S (length (c_text c))) a c); auto. Qed.

(* [c] is at text [t], mark [m], with [n] characters (or all, and the NUL) in
   the buffer *)
Definition hold (n : nat) (t : list N) (m : mark) (c : cur) : Prop :=
  c_text c = t /\ c_mark c = m /\ (Nat.min n (S (length t)) <= c_unread c)%nat.

Lemma hold_le k n t m c : hold n t m c -> (k <= n)%nat -> hold k t m c.
Proof. unfold hold. intuition lia. Qed.

(* where an error may point *)
Definition epos (t : list N) (m : mark) (start : option mark) (e : serr) : Prop :=
  (exists t', adv t m t' (se_mark e)) /\ (se_context e = None \/ se_context e = start).
Lemma epos_adv t m t' m' start e : adv t m t' m' -> epos t' m' start e -> epos t m start e.
Proof. intros A [[t2 H] C]. split; auto. exists t2. eapply adv_trans; eauto. Qed.
Lemma epos_here t m start p : epos t m start (mkSerr p start m).
Proof. split; [exists t; constructor|right; reflexivity]. Qed.
Lemma epos_here0 t m start p : epos t m start (mkSerr p None m).
Proof. split; [exists t; constructor|left; reflexivity]. Qed.

Lemma wp_cache k n t m c (Q : unit -> cur -> Prop) (E : serr -> Prop) :
  hold n t m c -> (forall c', hold (Nat.max n k) t m c' -> Q tt c') ->
  E (mkSerr SReader None m) -> wp (cache k) c Q E.
Proof.
  intros [<- [<- U]] H HE. unfold wp, cache.
  destruct (Nat.leb_spec k (c_unread c)).
  { apply H. repeat split. lia. }
  destruct (c_bad c && _) eqn:?; [apply HE|].
  apply H. repeat split. cbn [c_text c_unread]. lia.
Qed.
Lemma wp_peek k n t m c (Q : N -> cur -> Prop) E :
  hold n t m c -> (k < n)%nat -> (k <= length t)%nat -> forallb is_ascii (firstn k t) = true ->
  (hold n t m c -> Q (nth k t 0) c) -> wp (peek k) c Q E.
Proof.
  intros H Hk Hl Ha HQ. unfold wp, peek. destruct H as [<- [<- U]].
  rewrite Ha. destruct (Nat.ltb_spec k (c_unread c)); [|lia].
  cbn [andb]. apply HQ. repeat split. exact U.
Qed.
Lemma wp_peek0 n t m c (Q : N -> cur -> Prop) E :
  hold n t m c -> (0 < n)%nat -> Q (nth 0 t 0) c -> wp (peek 0) c Q E.
Proof. intros. eapply wp_peek; eauto; try lia; try reflexivity. Qed.
Lemma wp_check k p n t m c (Q : bool -> cur -> Prop) E :
  hold n t m c -> (k < n)%nat -> (k <= length t)%nat -> forallb is_ascii (firstn k t) = true ->
  Q (p (nth k t 0)) c -> wp (check k p) c Q E.
Proof. intros. apply wp_bind. eapply wp_peek; eauto. Qed.
Lemma wp_check0 p n t m c (Q : bool -> cur -> Prop) E :
  hold n t m c -> (0 < n)%nat -> Q (p (nth 0 t 0)) c -> wp (check 0 p) c Q E.
Proof. intros. eapply wp_check; eauto; try lia; try reflexivity. Qed.
Lemma wp_andc (a b : cm bool) c (Q : bool -> cur -> Prop) E :
  wp a c (fun x c' => if x then wp b c' Q E else Q false c') E -> wp (andc a b) c Q E.
Proof. intros H. apply wp_bind. eapply wp_mono; [exact H| |auto]. intros [] c' K; auto. Qed.
Lemma wp_orc (a b : cm bool) c (Q : bool -> cur -> Prop) E :
  wp a c (fun x c' => if x then Q true c' else wp b c' Q E) E -> wp (orc a b) c Q E.
Proof. intros H. apply wp_bind. eapply wp_mono; [exact H| |auto]. intros [] c' K; auto. Qed.
Lemma wp_get_mark n t m c (Q : mark -> cur -> Prop) E : hold n t m c -> Q m c -> wp get_mark c Q E.
Proof. intros [<- [<- U]] H. exact H. Qed.
Lemma wp_column n t m c (Q : N -> cur -> Prop) E : hold n t m c -> Q (m_column m) c -> wp column c Q E.
Proof. intros [<- [<- U]] H. exact H. Qed.
Lemma wp_err {A} ctx p n t m c (Q : A -> cur -> Prop) (E : serr -> Prop) :
  hold n t m c -> E (mkSerr p ctx m) -> wp (err ctx p) c Q E.
Proof. intros [<- [<- U]] H. exact H. Qed.
Lemma wp_skip n x t m c (Q : unit -> cur -> Prop) E :
  hold (S n) (x :: t) m c -> (forall c', hold n t (next_column 1 m) c' -> Q tt c') -> wp skip c Q E.
Proof.
  intros [H1 [<- U]] H. unfold wp, skip. rewrite H1. cbn [length] in U.
  destruct (c_unread c) eqn:Eu; [lia|]. apply H. repeat split. cbn [c_unread]. lia.
Qed.
Lemma wp_drop_line k n t m c (Q : unit -> cur -> Prop) E :
  hold n t m c -> (k <= n)%nat -> (k <= length t)%nat ->
  (forall c', hold (n - k) (skipn k t) (next_line (N.of_nat k) m) c' -> Q tt c') -> wp (drop_line k) c Q E.
Proof.
  intros [<- [<- U]] Hn Hl H. unfold wp, drop_line.
  destruct (Nat.leb_spec k (c_unread c)); [|lia]. destruct (Nat.leb_spec k (length (c_text c))); [|lia].
  cbn [andb]. apply H. repeat split. cbn [c_unread c_text]. rewrite skipn_length. lia.
Qed.

Lemma nth0_cons t : nth 0 t 0 <> 0 -> exists x r, t = x :: r.
Proof. destruct t; cbn; [congruence|eauto]. Qed.
Lemma nth_lt k t : nth k t 0 <> 0 -> (k < length t)%nat.
Proof. intros H. destruct (Nat.lt_ge_cases k (length t)); auto. rewrite nth_overflow in H; congruence. Qed.

Lemma wp_is_crlf n t m c (Q : bool -> cur -> Prop) E :
  hold n t m c -> (2 <= n)%nat ->
  (match t with 0xD :: 0xA :: _ => Q true c | _ => Q false c end) ->
  wp is_crlf c Q E.
Proof.
  intros H Hn HQ. apply wp_andc. eapply wp_check0; eauto; [lia|]. unfold eqc.
  destruct (N.eqb_spec (nth 0 t 0) 0xD) as [E0|E0].
  - destruct t as [|x r]; [discriminate|]. cbn in E0. subst x.
    eapply wp_check; eauto; [cbn [length]; lia|].
    cbn [nth]. destruct (N.eqb_spec (nth 0 r 0) 0xA) as [E1|E1].
    + destruct r as [|y r]; [discriminate|]. cbn in E1. subst y. exact HQ.
    + destruct r as [|y r]; [exact HQ|]. cbn in E1.
      destruct (N.eq_dec y 10); [congruence|].
      destruct y as [|p]; [exact HQ|]. do 4 (destruct p as [p|p|]; try exact HQ). congruence.
  - destruct t as [|x r]; [exact HQ|]. cbn in E0.
    destruct x as [|p]; [exact HQ|]. do 4 (destruct p as [p|p|]; try exact HQ). congruence.
Qed.
(* SKIP_LINE at a line break *)
Inductive line_step : list N -> mark -> list N -> mark -> Prop :=
| ls_crlf r m : line_step (0xD :: 0xA :: r) m r (next_line 2 m)
| ls_one x r m : is_break x = true -> (x =? 0xD) && (nth 0 r 0 =? 0xA) = false -> line_step (x :: r) m r (next_line 1 m).
Lemma line_step_adv t m t' m' : line_step t m t' m' -> adv t m t' m'.
Proof. destruct 1; [apply adv_crlf|apply adv_line; auto]; constructor. Qed.
Lemma line_step_len t m t' m' : line_step t m t' m' -> (length t' < length t)%nat.
Proof. destruct 1; cbn [length]; lia. Qed.
Lemma line_step_col t m t' m' : line_step t m t' m' -> m_column m' = 0.
Proof. destruct 1; reflexivity. Qed.

Lemma is_crlf_case (t : list N) : (exists r, t = 0xD :: 0xA :: r) \/
  ((nth 0 t 0 =? 0xD) && (nth 0 (tl t) 0 =? 0xA) = false /\
   forall (X : Type) (a b : X), match t with 0xD :: 0xA :: _ => a | _ => b end = b).
Proof.
  destruct t as [|x [|y r]].
  - right. split; auto.
  - right. split; [cbn; lia|]. intros. destruct x as [|p]; auto. do 4 (destruct p as [p|p|]; auto).
  - destruct (N.eq_dec x 13); [destruct (N.eq_dec y 10)|].
    + subst. left. eauto.
    + right. split; [cbn; lia|]. intros. subst x. destruct y as [|p]; auto. do 4 (destruct p as [p|p|]; auto). congruence.
    + right. split; [cbn; lia|]. intros. destruct x as [|p]; auto. do 4 (destruct p as [p|p|]; auto). congruence.
Qed.

Lemma wp_skip_line n t m c (Q : unit -> cur -> Prop) E :
  hold n t m c -> (2 <= n)%nat -> is_break (nth 0 t 0) = true ->
  (forall t' m' c', line_step t m t' m' -> hold (n - 2) t' m' c' -> Q tt c') ->
  wp skip_line c Q E.
Proof.
  intros H Hn B HQ. apply wp_bind.
  destruct (is_crlf_case t) as [[r ->]|[C X]].
  - eapply wp_is_crlf; eauto. eapply wp_drop_line; eauto; [cbn [length]; lia|].
    cbn [skipn]. intros c' H'. eapply HQ; [apply ls_crlf|exact H'].
  - eapply wp_is_crlf; eauto. rewrite X. apply wp_bind. eapply wp_check0; eauto; [lia|]. rewrite B.
    assert (B' : nth 0 t 0 <> 0) by (intros E0; rewrite E0 in B; discriminate).
    destruct (nth0_cons t B') as [x [r ->]]. cbn [nth] in *.
    eapply wp_drop_line; eauto; [lia|cbn [length]; lia|]. cbn [skipn]. intros c' H'.
    eapply HQ; [apply ls_one; auto|]. eapply hold_le; eauto. lia.
Qed.

Lemma wp_read s n x t m c (Q : list N -> cur -> Prop) E :
  hold (S n) (x :: t) m c -> (forall c', hold n t (next_column 1 m) c' -> Q (s ++ utf8_enc x) c') -> wp (read s) c Q E.
Proof.
  intros H HQ. apply wp_bind. eapply wp_peek0; eauto; [lia|]. apply wp_bind.
  eapply wp_skip; [eassumption|]. intros. apply wp_ret. auto.
Qed.

(* the bytes a line break contributes to a scalar *)
Definition break_bytes (t : list N) : list N :=
  match t with
  | x :: _ => if (x =? 0x2028) || (x =? 0x2029) then utf8_enc x else [0xA]
  | [] => []
  end.
Lemma wp_read_line s n t m c (Q : list N -> cur -> Prop) E :
  hold n t m c -> (2 <= n)%nat -> is_break (nth 0 t 0) = true ->
  (forall t' m' c', line_step t m t' m' -> hold (n - 2) t' m' c' -> Q (s ++ break_bytes t) c') ->
  wp (read_line s) c Q E.
Proof.
  intros H Hn B HQ. apply wp_bind.
  destruct (is_crlf_case t) as [[r ->]|[C X]].
  - eapply wp_is_crlf; eauto. apply wp_bind. eapply wp_drop_line; eauto; [cbn [length]; lia|].
    cbn [skipn]. intros c' H'. apply wp_ret. eapply (HQ _ _ _ (ls_crlf _ _)). exact H'.
  - eapply wp_is_crlf; eauto. rewrite X. apply wp_bind. eapply wp_peek0; eauto; [lia|].
    assert (B' : nth 0 t 0 <> 0) by (intros E0; rewrite E0 in B; discriminate).
    destruct (nth0_cons t B') as [x [r ->]]. cbn [nth] in *.
    assert (D : forall bs, bs = break_bytes (x :: r) -> wp (drop_line 1 ;;; ret (s ++ bs)) c Q E).
    { intros bs ->. apply wp_bind. eapply wp_drop_line; eauto; [lia|cbn [length]; lia|]. cbn [skipn]. intros c' H'.
      apply wp_ret. eapply HQ; [apply ls_one; auto|]. eapply hold_le; eauto. lia. }
    unfold is_break in B. unfold break_bytes in D.
    destruct ((x =? 0x2028) || (x =? 0x2029)) eqn:Els.
    + destruct (N.eqb_spec x 0x2028) as [->|]; [apply D; reflexivity|].
      destruct (N.eqb_spec x 0x2029) as [->|]; [apply D; reflexivity|]. discriminate.
    + rewrite !orb_false_r in B || rewrite orb_false_iff in Els.
      destruct ((x =? 0xD) || (x =? 0xA)) eqn:E1; [apply D; reflexivity|].
      destruct (x =? 0x85) eqn:E2; [apply D; reflexivity|].
      exfalso. destruct Els as [L1 L2]. rewrite L1, L2 in B. rewrite !orb_false_r in B. congruence.
Qed.
(* READ_LINE at the end of the stream does nothing *)
Lemma wp_read_line_z s n t m c (Q : list N -> cur -> Prop) E :
  hold n t m c -> (2 <= n)%nat -> is_z (nth 0 t 0) = true ->
  (hold n t m c -> Q s c) ->
  wp (read_line s) c Q E.
Proof.
  intros H Hn Z HQ. unfold is_z in Z. apply N.eqb_eq in Z. apply wp_bind.
  destruct (is_crlf_case t) as [[r ->]|[C X]]; [discriminate|].
  eapply wp_is_crlf; eauto. rewrite X. apply wp_bind. eapply wp_peek0; eauto; [lia|].
  rewrite Z. apply wp_ret. auto.
Qed.

Lemma wp_put s bs c (Q : list N -> cur -> Prop) E : (length bs <= room)%nat -> Q (s ++ bs) c -> wp (put s bs) c Q E.
Proof. intros H HQ. unfold put. destruct (Nat.leb_spec (length bs) room); [exact HQ|lia]. Qed.

(* the characters passed by skip_while *)
Lemma wp_skip_while p n t m c (Q : unit -> cur -> Prop) (E : serr -> Prop) start :
  hold n t m c -> (1 <= n)%nat ->
  (forall x, p x = true -> x <> 0 /\ is_break x = false) ->
  (forall w t' m' c', t = w ++ t' -> Forall (fun x => p x = true) w -> m' = next_column (nlen w) m -> adv t m t' m' ->
     hold 1 t' m' c' -> p (nth 0 t' 0) = false -> Q tt c') ->
  (forall e, epos t m start e -> E e) ->
  wp (skip_while p) c Q E.
Proof.
  intros H Hn Hp HQ HE.
  apply (wp_loop (fun _ c => exists w t' m', t = w ++ t' /\ Forall (fun x => p x = true) w /\ m' = next_column (nlen w) m /\
     adv t m t' m' /\ hold 1 t' m' c)).
  { exists [], t, m. split; [reflexivity|]. split; [constructor|].
    split; [unfold next_column; destruct m; cbn; f_equal; unfold nlen; cbn; lia|].
    split; [constructor|]. eapply hold_le; eauto. }
  intros _ c1 (w & t1 & m1 & T & F & M & A1 & H1). apply wp_bind. eapply wp_check0; eauto.
  destruct (p (nth 0 t1 0)) eqn:P1.
  - destruct (Hp _ P1) as [Z B]. destruct (nth0_cons t1 Z) as [x [r ->]]. cbn [nth] in *.
    apply wp_bind. eapply wp_skip; eauto. intros c2 H2.
    assert (A2 : adv t m r (next_column 1 m1)) by (eapply adv_trans; [exact A1|apply adv_one; auto]).
    apply wp_bind. eapply wp_cache; [exact H2| |].
    + intros c3 H3. apply wp_ret. split.
      * exists (w ++ [x]), r, (next_column 1 m1). split; [rewrite <- app_assoc; exact T|].
        split; [apply Forall_app; auto|]. split.
        { subst m1. unfold next_column. cbn [m_index m_line m_column]. rewrite nlen_app, nlen_cons, nlen_nil. f_equal; lia. }
        split; [exact A2|]. eapply hold_le; eauto.
      * rewrite (proj1 H1), (proj1 H3). cbn [length]. lia.
    + apply HE. eapply epos_adv; [exact A2|]. apply epos_here0.
  - apply wp_ret. eapply HQ; eauto.
Qed.

(* the characters read by read_while *)
Lemma wp_read_while p s n t m c (Q : list N -> cur -> Prop) (E : serr -> Prop) start :
  hold n t m c -> (1 <= n)%nat ->
  (forall x, p x = true -> x <> 0 /\ is_break x = false) ->
  (forall w t' m' c', t = w ++ t' -> Forall (fun x => p x = true) w -> m' = next_column (nlen w) m -> adv t m t' m' ->
     hold 1 t' m' c' -> p (nth 0 t' 0) = false -> Q (s ++ utf8 w) c') ->
  (forall e, epos t m start e -> E e) ->
  wp (read_while p s) c Q E.
Proof.
  intros H Hn Hp HQ HE.
  apply (wp_loop (fun s' c => exists w t' m', t = w ++ t' /\ Forall (fun x => p x = true) w /\ m' = next_column (nlen w) m /\
     adv t m t' m' /\ hold 1 t' m' c /\ s' = s ++ utf8 w)).
  { exists [], t, m. split; [reflexivity|]. split; [constructor|].
    split; [unfold next_column; destruct m; cbn; f_equal; unfold nlen; cbn; lia|].
    split; [constructor|]. split; [eapply hold_le; eauto|]. cbn. rewrite app_nil_r. reflexivity. }
  intros s1 c1 (w & t1 & m1 & T & F & M & A1 & H1 & S1). apply wp_bind. eapply wp_check0; eauto.
  destruct (p (nth 0 t1 0)) eqn:P1.
  - destruct (Hp _ P1) as [Z B]. destruct (nth0_cons t1 Z) as [x [r ->]]. cbn [nth] in *.
    apply wp_bind. eapply wp_read; eauto. intros c2 H2.
    assert (A2 : adv t m r (next_column 1 m1)) by (eapply adv_trans; [exact A1|apply adv_one; auto]).
    apply wp_bind. eapply wp_cache; [exact H2| |].
    + intros c3 H3. apply wp_ret. split.
      * exists (w ++ [x]), r, (next_column 1 m1). split; [rewrite <- app_assoc; exact T|].
        split; [apply Forall_app; auto|]. split.
        { subst m1. unfold next_column. cbn [m_index m_line m_column]. rewrite nlen_app, nlen_cons, nlen_nil. f_equal; lia. }
        split; [exact A2|]. split; [eapply hold_le; eauto|]. subst s1.
        unfold utf8. rewrite flat_map_app. cbn. rewrite app_nil_r, app_assoc. reflexivity.
      * rewrite (proj1 H1), (proj1 H3). cbn [length]. lia.
    + apply HE. eapply epos_adv; [exact A2|]. apply epos_here0.
  - apply wp_ret. subst s1. eapply HQ; eauto.
Qed.
