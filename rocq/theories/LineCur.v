(* Two runs of the scanner side by side, on a text and on the same text with LF for
   every line break: reading characters. *)
From Verif Require Import Base ReaderModel Utf8Spec CharSpec Types CursorModel ScanModel ScannerModel PlanFree LineSpec.

Definition nch (x : N) : N := if (x =? 0xD) || (x =? 0x85) then 0xA else x.
Lemma with_lf_crlf r : with_lf (0xD :: 0xA :: r) = 0xA :: with_lf r.
Proof. reflexivity. Qed.
Lemma with_lf_other x r : x <> 0xD \/ hd 0 r <> 0xA -> with_lf (x :: r) = nch x :: with_lf r.
Proof.
  intros H. unfold nch. cbn [with_lf]. destruct (N.eqb_spec x 0xD) as [->|N1]; cbn [orb].
  - f_equal. destruct r as [|y r]; [reflexivity|]. cbn in H. destruct (N.eqb_spec y 0xA); [destruct H; congruence|reflexivity].
  - destruct (x =? 0x85); reflexivity.
Qed.
Lemma with_lf_ind (P : list N -> Prop) : P [] -> (forall r, P r -> P (0xD :: 0xA :: r)) ->
  (forall x r, x <> 0xD \/ hd 0 r <> 0xA -> P r -> P (x :: r)) -> forall t, P t.
Proof.
  intros H1 H2 H3 t. assert (K : forall n t, (length t <= n)%nat -> P t); [|exact (K _ t (le_n _))].
  clear t. induction n as [|n IH]; intros [|x r] L; cbn [length] in L; try lia; auto.
  destruct (N.eq_dec x 0xD) as [->|Nx]; [|apply H3; [auto|apply IH; lia]].
  destruct r as [|y r]; [apply H3; [right; discriminate|auto]|].
  destruct (N.eq_dec y 0xA) as [->|Ny]; [apply H2, IH; cbn in L; lia|]. apply H3; [auto|apply IH; lia].
Qed.
Lemma with_lf_hd t : hd 0 (with_lf t) = nch (hd 0 t).
Proof. destruct t as [|x r]; [reflexivity|]. cbn. unfold nch. destruct (x =? 0xD); [reflexivity|]. destruct (x =? 0x85); reflexivity. Qed.

(* the first [k] characters are no line breaks *)
Definition nb (k : nat) (t : list N) : Prop := forall i, (i < k)%nat -> is_break (nth i t 0) = false.
Lemma nb0 t : nb 0 t. Proof. intros i Hi. lia. Qed.
Lemma nbS k t : nb k t -> is_break (nth k t 0) = false -> nb (S k) t.
Proof. intros H K i Hi. destruct (Nat.eq_dec i k) as [->|]; [exact K|apply H; lia]. Qed.
Lemma nb_tl k x r : nb (S k) (x :: r) -> nb k r.
Proof. intros H i Hi. apply (H (S i)). lia. Qed.
Lemma nb_le k k' t : nb k t -> (k' <= k)%nat -> nb k' t.
Proof. intros H L i Hi. apply H. lia. Qed.
Lemma nch_same x : is_break x = false -> nch x = x.
Proof. unfold is_break, nch. intros H. destruct (x =? 0xD); [discriminate|]. destruct (x =? 0x85) eqn:E; [|reflexivity]. rewrite orb_true_r in H. discriminate. Qed.
Lemma solid x r : is_break x = false -> with_lf (x :: r) = x :: with_lf r.
Proof. intros H. rewrite with_lf_other; [rewrite (nch_same _ H); reflexivity|]. left. intros ->. discriminate. Qed.
Lemma with_lf_nb k : forall t, nb k t -> with_lf t = firstn k t ++ with_lf (skipn k t).
Proof.
  induction k as [|k IH]; intros [|x r] H; try reflexivity. cbn [firstn skipn app].
  rewrite solid by (apply (H O); lia). rewrite IH by exact (nb_tl _ _ _ H). reflexivity.
Qed.
Lemma hd_nth {A} (d : A) l : hd d l = nth 0 l d.
Proof. destruct l; reflexivity. Qed.
Lemma skipn_hd k : forall (t : list N), hd 0 (skipn k t) = nth k t 0.
Proof. induction k as [|k IH]; intros [|x r]; try reflexivity. cbn. apply IH. Qed.
Lemma with_lf_nth k t : nb k t -> (k <= length t)%nat -> nth k (with_lf t) 0 = nch (nth k t 0).
Proof.
  intros H L. rewrite (with_lf_nb k t H). rewrite app_nth2; rewrite firstn_length_le by exact L; [|lia]. rewrite Nat.sub_diag, <- hd_nth, with_lf_hd, skipn_hd. reflexivity.
Qed.

Section S.
(* how many more characters the first lines of the original text have *)
Variable D : N -> N.
Definition nmark (m : mark) : mark := mkMark (m_index m - D (m_line m)) (m_line m) (m_column m).
Definition nerr (e : serr) : serr := mkSerr (se_problem e) (option_map nmark (se_context e)) (nmark (se_mark e)).
Definition ntoken (t : token) : token := mkToken (t_tok t) (nmark (t_start t)) (nmark (t_end t)) (t_deep t).
(* [D] agrees with the line breaks still to come *)
Fixpoint follows (l : N) (t : list N) : Prop :=
  match t with
  | [] => forall l', l <= l' -> D l' = D l
  | x :: r =>
      if x =? 0xD then
        match r with
        | y :: r' => if y =? 0xA then D (l + 1) = D l + 1 /\ follows (l + 1) r' else D (l + 1) = D l /\ follows (l + 1) r
        | [] => D (l + 1) = D l /\ forall l', l + 1 <= l' -> D l' = D (l + 1)
        end
      else if is_break x then D (l + 1) = D l /\ follows (l + 1) r
      else follows l r
  end.
Lemma follows_crlf l r : follows l (0xD :: 0xA :: r) = (D (l + 1) = D l + 1 /\ follows (l + 1) r).
Proof. reflexivity. Qed.
Lemma follows_break l x r : is_break x = true -> x <> 0xD \/ hd 0 r <> 0xA -> follows l (x :: r) = (D (l + 1) = D l /\ follows (l + 1) r).
Proof.
  intros B H. cbn [follows]. destruct (N.eqb_spec x 0xD) as [->|]; [|rewrite B; reflexivity].
  destruct r as [|y r]; [reflexivity|]. cbn in H. destruct (N.eqb_spec y 0xA); [destruct H; congruence|reflexivity].
Qed.
Lemma follows_solid l x r : is_break x = false -> follows l (x :: r) = follows l r.
Proof. intros B. cbn [follows]. rewrite B. destruct (N.eqb_spec x 0xD) as [->|]; [discriminate|reflexivity]. Qed.

Record ok (L : N) (t : list N) (m : mark) : Prop := { o_follows : follows (m_line m) t; o_index : D (m_line m) <= m_index m; o_line : L <= m_line m; o_nul : ~ In 0 t }.
Lemma ok_solid L x r m : ok L (x :: r) m -> is_break x = false -> ok L r (next_column 1 m).
Proof. intros [H1 H2 H3 H4] B. rewrite follows_solid in H1 by exact B. constructor; cbn; auto; [lia|]. intros K. apply H4. right. exact K. Qed.
Lemma ok_crlf L r m : ok L (0xD :: 0xA :: r) m -> ok L r (next_line 2 m).
Proof. intros [H1 H2 H3 H4]. rewrite follows_crlf in H1. constructor; cbn; [tauto|lia|lia|]. intros K. apply H4. right. right. exact K. Qed.
Lemma ok_break L x r m : ok L (x :: r) m -> is_break x = true -> x <> 0xD \/ hd 0 r <> 0xA -> ok L r (next_line 1 m).
Proof. intros [H1 H2 H3 H4] B H. rewrite follows_break in H1 by auto. constructor; cbn; [tauto|lia|lia|]. intros K. apply H4. right. exact K. Qed.
Lemma ok_weak L L' t m : ok L t m -> L' <= L -> ok L' t m.
Proof. intros [] ?. constructor; auto. lia. Qed.
Lemma nmark_column k m : D (m_line m) <= m_index m -> nmark (next_column k m) = next_column k (nmark m).
Proof. intros H. unfold nmark, next_column. cbn. f_equal. lia. Qed.

(* everything in the buffer *)
Definition cu (t : list N) (m : mark) : cur := mkCur t (S (length t)) [] false m.

Definition rw {A} (m1 m2 : cm A) (t : list N) (m : mark) (Q : A -> A -> list N -> mark -> Prop) : Prop :=
  match m1 (cu t m), m2 (cu (with_lf t) (nmark m)) with
  | COk a1 c1, COk a2 c2 => exists t' m', c1 = cu t' m' /\ c2 = cu (with_lf t') (nmark m') /\ Q a1 a2 t' m'
  | CErr e1, CErr e2 => e2 = nerr e1
  | COk _ _, CErr _ | CErr _, COk _ _ => False
  | _, _ => True
  end.
Lemma rw_mono {A} (m1 m2 : cm A) t m (Q Q' : A -> A -> list N -> mark -> Prop) :
  rw m1 m2 t m Q -> (forall a1 a2 t' m', Q a1 a2 t' m' -> Q' a1 a2 t' m') -> rw m1 m2 t m Q'.
Proof.
  unfold rw. intros H K. destruct (m1 (cu t m)), (m2 (cu (with_lf t) (nmark m))); auto.
  destruct H as (t' & m' & E1 & E2 & HQ). exists t', m'. auto.
Qed.
Lemma rw_ret {A} (a1 a2 : A) t m (Q : _ -> _ -> list N -> mark -> Prop) : Q a1 a2 t m -> rw (ret a1) (ret a2) t m Q.
Proof. intros H. exists t, m. auto. Qed.
Lemma rw_bind {A B} (m1 m2 : cm A) (k1 k2 : A -> cm B) t m (Q : _ -> _ -> list N -> mark -> Prop) :
  rw m1 m2 t m (fun a1 a2 t' m' => rw (k1 a1) (k2 a2) t' m' Q) -> rw (bind m1 k1) (bind m2 k2) t m Q.
Proof.
  unfold rw at 1. intros H. unfold rw, bind. destruct (m1 (cu t m)) as [a1 c1|e1| |], (m2 (cu (with_lf t) (nmark m))) as [a2 c2|e2| |]; auto; try contradiction.
  - destruct H as (t' & m' & -> & -> & H). exact H.
  - destruct (k1 a1 c1); auto.
  - destruct (k1 a1 c1); auto.
Qed.
Lemma rw_err {A} (o1 o2 : option mark) p t m (Q : A -> A -> list N -> mark -> Prop) : o2 = option_map nmark o1 -> rw (err o1 p) (err o2 p) t m Q.
Proof. intros ->. reflexivity. Qed.
Lemma rw_ub {A} (m2 : cm A) t m (Q : _ -> _ -> list N -> mark -> Prop) : rw ub m2 t m Q.
Proof. exact I. Qed.
Lemma rw_ub2 {A} (m1 : cm A) t m (Q : _ -> _ -> list N -> mark -> Prop) : rw m1 ub t m Q.
Proof. unfold rw, ub. destruct (m1 (cu t m)); exact I. Qed.
Lemma rw_cache n t m (Q : _ -> _ -> list N -> mark -> Prop) : Q tt tt t m -> rw (cache n) (cache n) t m Q.
Proof. intros H. unfold rw, cu. rewrite !cache_full. exists t, m. auto. Qed.
Lemma rw_mark t m (Q : _ -> _ -> list N -> mark -> Prop) : Q m (nmark m) t m -> rw get_mark get_mark t m Q.
Proof. intros H. exists t, m. auto. Qed.
Lemma rw_column t m (Q : _ -> _ -> list N -> mark -> Prop) : Q (m_column m) (m_column m) t m -> rw column column t m Q.
Proof. intros H. exists t, m. auto. Qed.
Lemma rw_peek k t m (Q : _ -> _ -> list N -> mark -> Prop) : nb k t -> Q (nth k t 0) (nch (nth k t 0)) t m -> rw (peek k) (peek k) t m Q.
Proof.
  intros B H. unfold rw, peek, cu. cbn [c_unread c_text]. destruct (k <? S (length t))%nat eqn:E; [|exact I]. cbn [andb]. apply Nat.ltb_lt in E.
  destruct (forallb is_ascii (firstn k t)) eqn:F; [|exact I].
  assert (L : (k <= length (with_lf t))%nat) by (rewrite (with_lf_nb k t B), app_length, firstn_length_le; lia).
  replace (k <? S (length (with_lf t)))%nat with true by (symmetry; apply Nat.ltb_lt; lia).
  assert (F2 : firstn k (with_lf t) = firstn k t).
  { rewrite (with_lf_nb k t B). rewrite firstn_app, firstn_length_le by lia. rewrite Nat.sub_diag, firstn_O, app_nil_r, firstn_firstn, Nat.min_id. reflexivity. }
  rewrite F2, F. cbn [andb]. exists t, m. split; [reflexivity|]. split; [reflexivity|]. rewrite with_lf_nth by (auto; lia). exact H.
Qed.
Definition nice (p : N -> bool) : Prop := forall x, p (nch x) = p x.
Lemma rw_check k p t m (Q : _ -> _ -> list N -> mark -> Prop) : nb k t -> nice p -> Q (p (nth k t 0)) (p (nth k t 0)) t m -> rw (check k p) (check k p) t m Q.
Proof. intros B P H. apply rw_bind, rw_peek; [exact B|]. apply rw_ret. rewrite P. exact H. Qed.
Lemma rw_andc (a1 a2 b1 b2 : cm bool) t m (Q : _ -> _ -> list N -> mark -> Prop) :
  rw a1 a2 t m (fun x1 x2 t' m' => x2 = x1 /\ (if x1 then rw b1 b2 t' m' Q else Q false false t' m')) -> rw (andc a1 b1) (andc a2 b2) t m Q.
Proof. intros H. apply rw_bind. eapply rw_mono; [exact H|]. intros x1 x2 t' m' [-> K]. destruct x1; [exact K|apply rw_ret; exact K]. Qed.
Lemma rw_orc (a1 a2 b1 b2 : cm bool) t m (Q : _ -> _ -> list N -> mark -> Prop) :
  rw a1 a2 t m (fun x1 x2 t' m' => x2 = x1 /\ (if x1 then Q true true t' m' else rw b1 b2 t' m' Q)) -> rw (orc a1 b1) (orc a2 b2) t m Q.
Proof. intros H. apply rw_bind. eapply rw_mono; [exact H|]. intros x1 x2 t' m' [-> K]. destruct x1; [apply rw_ret; exact K|exact K]. Qed.
Lemma rw_skip L t m (Q : _ -> _ -> list N -> mark -> Prop) : ok L t m -> nb 1 t -> (forall x r, t = x :: r -> ok L r (next_column 1 m) -> Q tt tt r (next_column 1 m)) -> rw skip skip t m Q.
Proof.
  intros O B H. unfold rw, skip, cu. cbn [c_text c_unread c_plan c_bad c_mark]. destruct t as [|x r]; [exact I|].
  assert (Bx : is_break x = false) by (apply (B 0%nat); lia). rewrite solid by exact Bx. cbn [length]. exists r, (next_column 1 m).
  split; [reflexivity|]. split; [unfold cu; rewrite nmark_column by apply O; reflexivity|]. apply (H x r); [reflexivity|eapply ok_solid; eauto].
Qed.
Lemma rw_read L s t m (Q : _ -> _ -> list N -> mark -> Prop) : ok L t m -> nb 1 t ->
  (forall x r, t = x :: r -> ok L r (next_column 1 m) -> Q (s ++ utf8_enc x) (s ++ utf8_enc x) r (next_column 1 m)) -> rw (read s) (read s) t m Q.
Proof.
  intros O B H. apply rw_bind, rw_peek; [apply nb0|]. apply rw_bind. eapply rw_skip; [exact O|exact B|]. intros x r -> O'. apply rw_ret.
  rewrite nch_same by (apply (B 0%nat); lia). cbn [nth]. apply (H x r); auto.
Qed.

(* line breaks *)
Lemma rw_line_cases L t m (P : Prop) : ok L t m ->
  (forall r, t = 0xD :: 0xA :: r -> ok L r (next_line 2 m) -> P) ->
  (forall x r, t = x :: r -> is_break x = true -> (x <> 0xD \/ hd 0 r <> 0xA) -> ok L r (next_line 1 m) -> P) ->
  (is_break (nth 0 t 0) = false -> P) -> P.
Proof.
  intros O H1 H2 H3. destruct t as [|x r]; [apply H3; reflexivity|]. destruct (is_break x) eqn:B; [|apply H3; exact B].
  destruct (N.eq_dec x 0xD) as [->|Nx].
  - destruct r as [|y r]; [apply (H2 0xD []); auto; [right; discriminate|eapply ok_break; eauto; right; discriminate]|].
    destruct (N.eq_dec y 0xA) as [->|Ny]; [apply (H1 r); [reflexivity|eapply ok_crlf; eauto]|]. apply (H2 0xD (y :: r)); auto. eapply ok_break; eauto.
  - apply (H2 x r); auto. eapply ok_break; eauto.
Qed.
Lemma run_crlf r u m : is_crlf (mkCur (0xD :: 0xA :: r) (S (S u)) [] false m) = COk true (mkCur (0xD :: 0xA :: r) (S (S u)) [] false m).
Proof. reflexivity. Qed.
Lemma run_not_crlf x r m : (x <> 0xD \/ hd 0 r <> 0xA) -> is_crlf (cu (x :: r) m) = COk false (cu (x :: r) m).
Proof.
  intros H. change (is_crlf (cu (x :: r) m)) with ((if eqc 0xD x then check 1 (eqc 0xA) else ret false) (cu (x :: r) m)).
  unfold eqc at 1. destruct (N.eqb_spec x 0xD) as [->|Nx]; [|reflexivity].
  change (COk (eqc 0xA (nth 0 r 0)) (cu (0xD :: r) m) = COk false (cu (0xD :: r) m)). unfold eqc. rewrite <- hd_nth.
  destruct (N.eqb_spec (hd 0 r) 0xA); [destruct H; congruence|reflexivity].
Qed.
Lemma hd_with_lf_solid x r : (x <> 0xD \/ hd 0 r <> 0xA) -> nch x <> 0xD \/ hd 0 (with_lf r) <> 0xA.
Proof. intros H. left. unfold nch. destruct (N.eqb_spec x 0xD); [discriminate|]. destruct (x =? 0x85); cbn; [discriminate|assumption]. Qed.
Lemma nmark_line m k l : D (m_line m + 1) + l = D (m_line m) + k -> D (m_line m) <= m_index m -> k <= 1 + l -> nmark (next_line k m) = next_line l (nmark m).
Proof. intros H1 H2 H3. unfold nmark, next_line. cbn. f_equal. lia. Qed.
Lemma crlf_mark L r m : ok L (0xD :: 0xA :: r) m -> nmark (next_line 2 m) = next_line 1 (nmark m).
Proof. intros [H1 H2 _]. rewrite follows_crlf in H1. destruct H1 as [H1 _]. unfold nmark, next_line. cbn. f_equal. lia. Qed.
Lemma break_mark L x r m : ok L (x :: r) m -> is_break x = true -> x <> 0xD \/ hd 0 r <> 0xA -> nmark (next_line 1 m) = next_line 1 (nmark m).
Proof. intros [H1 H2 _] B H. rewrite follows_break in H1 by auto. destruct H1 as [H1 _]. unfold nmark, next_line. cbn. f_equal. lia. Qed.
Lemma run_drop1 x r m : drop_line 1 (cu (x :: r) m) = COk tt (cu r (next_line 1 m)).
Proof. reflexivity. Qed.
Lemma run_drop2 x y r m : drop_line 2 (cu (x :: y :: r) m) = COk tt (cu r (next_line 2 m)).
Proof. reflexivity. Qed.
Lemma run_check0 p t m : check 0 p (cu t m) = COk (p (nth 0 t 0)) (cu t m).
Proof. reflexivity. Qed.
Lemma run_peek0 t m : peek 0 (cu t m) = COk (nth 0 t 0) (cu t m).
Proof. reflexivity. Qed.
Lemma break_nch x : is_break (nch x) = is_break x.
Proof. unfold nch, is_break. destruct (N.eqb_spec x 0xD) as [->|]; [reflexivity|]. destruct (N.eqb_spec x 0x85) as [->|]; [reflexivity|]. cbn [orb]. destruct (N.eqb_spec x 0xD), (N.eqb_spec x 0x85); try contradiction. reflexivity. Qed.
Lemma run_lf t m : nth 0 t 0 <> 0xD -> is_crlf (cu t m) = COk false (cu t m).
Proof. intros H. unfold is_crlf, andc, bind. rewrite run_check0. unfold eqc. destruct (N.eqb_spec (nth 0 t 0) 0xD); [contradiction|reflexivity]. Qed.
Lemma with_lf_nocr t : nth 0 (with_lf t) 0 <> 0xD.
Proof. rewrite <- hd_nth, with_lf_hd. unfold nch. destruct (N.eqb_spec (hd 0 t) 0xD); [discriminate|]. destruct (hd 0 t =? 0x85); cbn; [discriminate|assumption]. Qed.

Lemma rw_skip_line L t m (Q : _ -> _ -> list N -> mark -> Prop) : ok L t m -> (forall t' m', ok L t' m' -> Q tt tt t' m') -> rw skip_line skip_line t m Q.
Proof.
  intros O H. unfold rw, skip_line, bind. rewrite (run_lf (with_lf t)) by apply with_lf_nocr. rewrite run_check0.
  eapply (rw_line_cases L t m); [exact O| | |].
  - intros r -> O'. unfold cu at 1. cbn [length]. rewrite run_crlf. fold (cu (0xD :: 0xA :: r) m). rewrite with_lf_crlf. cbn [nth]. change (is_break 0xA) with true. cbv iota.
    change (mkCur (0xD :: 0xA :: r) (S (S (S (length r)))) [] false m) with (cu (0xD :: 0xA :: r) m). rewrite run_drop2, run_drop1.
    exists r, (next_line 2 m). split; [reflexivity|]. split; [rewrite (crlf_mark _ _ _ O); reflexivity|auto].
  - intros x r -> B C O'. rewrite (run_not_crlf _ _ _ C), run_check0. cbn [nth]. rewrite B. rewrite with_lf_other by exact C. cbn [nth]. rewrite break_nch, B, !run_drop1.
    exists r, (next_line 1 m). split; [reflexivity|]. split; [rewrite (break_mark _ _ _ _ O B C); reflexivity|auto].
  - intros B. rewrite run_lf by (intros E; rewrite E in B; discriminate). rewrite run_check0, B. rewrite <- (hd_nth 0 (with_lf t)), with_lf_hd, break_nch, hd_nth, B.
    exists t, m. split; [reflexivity|]. split; [reflexivity|]. auto.
Qed.
Lemma run_read_line_lf s t m : nth 0 t 0 <> 0xD -> read_line s (cu t m) =
  (if (nth 0 t 0 =? 0xA) || (nth 0 t 0 =? 0x85) then (drop_line 1 ;;; ret (s ++ [0xA])) (cu t m)
   else if (nth 0 t 0 =? 0x2028) || (nth 0 t 0 =? 0x2029) then (drop_line 1 ;;; ret (s ++ utf8_enc (nth 0 t 0))) (cu t m) else COk s (cu t m)).
Proof.
  intros H. unfold read_line, bind at 1. rewrite run_lf by exact H. unfold bind at 1. rewrite run_peek0.
  destruct (N.eqb_spec (nth 0 t 0) 0xD); [contradiction|]. cbn [orb]. destruct (_ =? 0xA); [reflexivity|]. destruct (_ =? 0x85); [reflexivity|]. cbn [orb].
  destruct (_ || _); reflexivity.
Qed.
Lemma rw_read_line L s t m (Q : _ -> _ -> list N -> mark -> Prop) : ok L t m -> (forall s' t' m', ok L t' m' -> Q s' s' t' m') -> rw (read_line s) (read_line s) t m Q.
Proof.
  intros O H. unfold rw. rewrite (run_read_line_lf s (with_lf t)) by apply with_lf_nocr.
  eapply (rw_line_cases L t m); [exact O| | |].
  - intros r -> O'. unfold read_line, bind at 1. unfold cu at 1. cbn [length]. rewrite run_crlf.
    change (mkCur (0xD :: 0xA :: r) (S (S (S (length r)))) [] false m) with (cu (0xD :: 0xA :: r) m). unfold bind. rewrite run_drop2.
    rewrite with_lf_crlf. cbn [nth]. change ((0xA =? 0xA) || (0xA =? 0x85)) with true. cbv iota. rewrite run_drop1.
    exists r, (next_line 2 m). split; [reflexivity|]. split; [rewrite (crlf_mark _ _ _ O); reflexivity|auto].
  - intros x r -> B C O'. rewrite with_lf_other by exact C. cbn [nth].
    assert (K : read_line s (cu (x :: r) m) = if (nch x =? 0xA) || (nch x =? 0x85) then (drop_line 1 ;;; ret (s ++ [0xA])) (cu (x :: r) m)
      else (drop_line 1 ;;; ret (s ++ utf8_enc (nch x))) (cu (x :: r) m)).
    { unfold read_line, bind at 1. rewrite (run_not_crlf _ _ _ C). unfold bind at 1. rewrite run_peek0. cbn [nth].
      unfold is_break in B. unfold nch.
      destruct (N.eqb_spec x 0xD) as [->|]; [reflexivity|]. destruct (N.eqb_spec x 0xA) as [->|]; [reflexivity|]. destruct (N.eqb_spec x 0x85) as [->|]; [reflexivity|]. cbn [orb] in *.
      rewrite B. destruct (N.eqb_spec x 0xA); [contradiction|]. destruct (N.eqb_spec x 0x85); [contradiction|]. reflexivity. }
    rewrite K. unfold is_break in B. unfold nch in *.
    assert (G : forall v, match (drop_line 1 ;;; ret v) (cu (x :: r) m) with
      | COk a1 c1 => match (drop_line 1 ;;; ret v) (cu (nch x :: with_lf r) (nmark m)) with
         | COk a2 c2 => exists t' m', c1 = cu t' m' /\ c2 = cu (with_lf t') (nmark m') /\ Q a1 a2 t' m' | CErr _ => False | _ => True end
      | CErr e1 => match (drop_line 1 ;;; ret v) (cu (nch x :: with_lf r) (nmark m)) with COk _ _ => False | CErr e2 => e2 = nerr e1 | _ => True end
      | _ => True end).
    { intros v. unfold bind. rewrite !run_drop1. exists r, (next_line 1 m). split; [reflexivity|]. split; [rewrite (break_mark _ _ _ _ O); [reflexivity|unfold is_break; exact B|exact C]|auto]. }
    unfold nch in G.
    destruct (N.eqb_spec x 0xD) as [E|N1]; [apply G|]. destruct (N.eqb_spec x 0x85) as [E|N2]; [apply G|]. cbn [orb] in *.
    destruct (N.eqb_spec x 0xA) as [E|N3]; cbn [orb] in *; [apply G|].
    destruct (N.eqb_spec x 0x85); [contradiction|]. rewrite B. apply G.
  - intros B. rewrite run_read_line_lf by (intros E; rewrite E in B; discriminate). rewrite <- (hd_nth 0 (with_lf t)), with_lf_hd, hd_nth, nch_same by exact B.
    unfold is_break in B. destruct (N.eqb_spec (nth 0 t 0) 0xD); [discriminate|]. destruct (nth 0 t 0 =? 0xA); [discriminate|]. destruct (nth 0 t 0 =? 0x85); [discriminate|]. cbn [orb] in *. rewrite B.
    exists t, m. split; [reflexivity|]. split; [reflexivity|]. auto.
Qed.

(* loops *)
Lemma rw_loop {A B} (b1 b2 : A -> cm (A + B)) (J : A -> A -> list N -> mark -> Prop) (Q : B -> B -> list N -> mark -> Prop) :
  (forall a1 a2 t m, J a1 a2 t m -> rw (b1 a1) (b2 a2) t m (fun r1 r2 t' m' =>
     match r1, r2 with inl x1, inl x2 => J x1 x2 t' m' | inr y1, inr y2 => Q y1 y2 t' m' | _, _ => False end)) ->
  forall a1 a2 t m, J a1 a2 t m -> rw (loop b1 a1) (loop b2 a2) t m Q.
Proof.
  intros H a1 a2 t m HJ. unfold rw, loop. generalize (S (length (c_text (cu t m)))) as n1. generalize (S (length (c_text (cu (with_lf t) (nmark m))))) as n2. intros n2 n1.
  revert n2 a1 a2 t m HJ. induction n1 as [|n1 IH]; intros n2 a1 a2 t m HJ; [exact I|]. destruct n2 as [|n2].
  { cbn [loop_n]. destruct (b1 a1 (cu t m)) as [[x|y] c| | |]; auto; destruct (loop_n n1 b1 x c); auto. }
  cbn [loop_n]. specialize (H _ _ _ _ HJ). unfold rw in H.
  destruct (b1 a1 (cu t m)) as [r1 c1|e1| |]; [| |exact I|exact I].
  - destruct (b2 a2 (cu (with_lf t) (nmark m))) as [r2 c2|e2| |].
    + destruct H as (t' & m' & -> & -> & H). destruct r1 as [x1|y1], r2 as [x2|y2]; try contradiction; [exact (IH n2 _ _ _ _ H)|]. exists t', m'. auto.
    + contradiction.
    + destruct r1 as [x1|y1]; [destruct (loop_n n1 b1 x1 c1)|]; auto.
    + destruct r1 as [x1|y1]; [destruct (loop_n n1 b1 x1 c1)|]; auto.
  - destruct (b2 a2 (cu (with_lf t) (nmark m))) as [r2 c2|e2| |]; auto. contradiction.
Qed.
End S.
