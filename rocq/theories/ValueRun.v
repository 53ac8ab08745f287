(* What the values of scalars are made of: the characters of the text, spaces and line
   feeds. *)
From Verif Require Import Base ReaderModel Utf8Spec CharSpec Types CursorModel ScanModel ScannerModel ScannerSpec.

Section S.
Variable P : N -> Prop.
Hypothesis P_space : P 0x20.
Hypothesis P_lf : P 0xA.
Definition cl (c : cur) : Prop := Forall P (c_text c).
Definition made (v : list N) : Prop := exists w, v = utf8 w /\ Forall P w.
Lemma made_nil : made []. Proof. exists []. split; [reflexivity|constructor]. Qed.
Lemma made_app a b : made a -> made b -> made (a ++ b).
Proof. intros (u & -> & U) (v & -> & V). exists (u ++ v). split; [symmetry; apply flat_map_app|apply Forall_app; auto]. Qed.
Lemma made_char x : P x -> made (utf8_enc x).
Proof. intros H. exists [x]. split; [cbn; rewrite app_nil_r; reflexivity|auto]. Qed.
Lemma made_space : made [0x20]. Proof. exact (made_char 0x20 P_space). Qed.
Lemma made_lf : made [0xA]. Proof. exact (made_char 0xA P_lf). Qed.
Hint Resolve made_nil made_app made_space made_lf : mk.

Definition pw {A} (m : cm A) (Q : A -> Prop) : Prop := forall c, cl c -> match m c with COk a c' => cl c' /\ Q a | _ => True end.
Lemma pw_mono {A} (m : cm A) (Q Q' : A -> Prop) : pw m Q -> (forall a, Q a -> Q' a) -> pw m Q'.
Proof. intros H K c C. specialize (H c C). destruct (m c); auto. destruct H. auto. Qed.
Lemma pw_ret {A} (a : A) (Q : A -> Prop) : Q a -> pw (ret a) Q.
Proof. intros H c C. cbn. auto. Qed.
Lemma pw_bind {A B} (m : cm A) (k : A -> cm B) (Q1 : A -> Prop) (Q : B -> Prop) : pw m Q1 -> (forall a, Q1 a -> pw (k a) Q) -> pw (bind m k) Q.
Proof. intros H K c C. unfold bind. specialize (H c C). destruct (m c) as [a c'| | |]; auto. destruct H as [C' HQ]. exact (K a HQ c' C'). Qed.
Lemma pw_err {A} o p (Q : A -> Prop) : pw (err o p) Q. Proof. intros c C. exact I. Qed.
Lemma pw_ub {A} (Q : A -> Prop) : pw ub Q. Proof. intros c C. exact I. Qed.
Lemma pw_mark : pw get_mark (fun _ => True). Proof. intros c C. cbn. auto. Qed.
Lemma pw_column : pw column (fun _ => True). Proof. intros c C. cbn. auto. Qed.
Lemma pw_cache n : pw (cache n) (fun _ => True).
Proof. intros c C. unfold cache. destruct (_ <=? _)%nat; [auto|]. destruct (_ && _); [exact I|auto]. Qed.
Lemma nth_P k t : Forall P t -> nth k t 0 <> 0 -> P (nth k t 0).
Proof. revert k. induction t as [|x r IH]; intros k H N; [destruct k; contradiction|]. inversion H; subst. destruct k; [assumption|]. apply IH; assumption. Qed.
Lemma pw_peek k : pw (peek k) (fun x => x <> 0 -> P x).
Proof. intros c C. unfold peek. destruct (_ && _); [|exact I]. split; [exact C|]. apply nth_P. exact C. Qed.
Lemma pw_check k p : pw (check k p) (fun b => b = true -> exists x, p x = true /\ (x <> 0 -> P x)).
Proof. eapply pw_bind; [apply pw_peek|]. intros x H. apply pw_ret. eauto. Qed.
Lemma pw_andc a b (Qa Qb : bool -> Prop) (Q : bool -> Prop) : pw a Qa -> (Qa true -> pw b Qb) -> (Qa true -> Qb true -> Q true) -> Q false -> pw (andc a b) Q.
Proof.
  intros H K T F. eapply pw_bind; [exact H|]. intros [] Ha; [|apply pw_ret; exact F]. eapply pw_mono; [apply K; exact Ha|]. intros [] Hb; auto.
Qed.
Lemma pw_skip : pw skip (fun _ => True).
Proof. intros c C. unfold skip. unfold cl in *. destruct (c_text c) as [|x r]; [exact I|]. destruct (c_unread c); [exact I|]. inversion C; subst. auto. Qed.
Lemma pw_drop_line k : pw (drop_line k) (fun _ => True).
Proof.
  intros c C. unfold drop_line. destruct (_ && _); [|exact I]. split; [|exact I]. unfold cl in *. cbn [c_text]. apply Forall_forall. intros x H. rewrite Forall_forall in C. apply C.
  rewrite <- (firstn_skipn k). apply in_or_app. auto.
Qed.
Lemma pw_force : pw force_line (fun _ => True).
Proof. intros c C. unfold force_line. destruct (_ =? _); auto. Qed.
Lemma pw_loop {A B} (body : A -> cm (A + B)) (J : A -> Prop) (Q : B -> Prop) a : J a ->
  (forall a, J a -> pw (body a) (fun r => match r with inl a' => J a' | inr b => Q b end)) -> pw (loop body a) Q.
Proof.
  intros Ha H c C. unfold loop. generalize (S (length (c_text c))) as n. intros n. revert a c Ha C. induction n as [|n IH]; intros a c Ha C; [exact I|]. cbn [loop_n].
  specialize (H a Ha c C). destruct (body a c) as [[a'|b] c'| | |]; auto. destruct H as [C' H]. apply IH; assumption.
Qed.
Definition any {A} (_ : A) : Prop := True.
Lemma pw_any {A} (m : cm A) Q : pw m Q -> pw m any. Proof. intros H. eapply pw_mono; [exact H|]. intros; exact I. Qed.
Lemma any_bind {A B} (m : cm A) (k : A -> cm B) : pw m any -> (forall a, pw (k a) any) -> pw (bind m k) any.
Proof. intros H K. eapply pw_bind; [exact H|]. intros a _. apply K. Qed.
Lemma any_loop {A B} (body : A -> cm (A + B)) a : (forall a, pw (body a) any) -> pw (loop body a) any.
Proof. intros H. apply (pw_loop body any); [exact I|]. intros x _. eapply pw_mono; [apply H|]. intros [] _; exact I. Qed.
Lemma any_ret {A} (a : A) : pw (ret a) any. Proof. apply pw_ret. exact I. Qed.
Lemma any_err {A} o p : pw (@err A o p) any. Proof. apply pw_err. Qed.
Lemma any_ub {A} : pw (@ub A) any. Proof. apply pw_ub. Qed.
Lemma any_cache n : pw (cache n) any. Proof. exact (pw_cache n). Qed.
Lemma any_mark : pw get_mark any. Proof. exact pw_mark. Qed.
Lemma any_column : pw column any. Proof. exact pw_column. Qed.
Lemma any_skip : pw skip any. Proof. exact pw_skip. Qed.
Lemma any_drop k : pw (drop_line k) any. Proof. exact (pw_drop_line k). Qed.
Lemma any_peek k : pw (peek k) any. Proof. eapply pw_any, pw_peek. Qed.
Lemma any_force : pw force_line any. Proof. exact pw_force. Qed.
Hint Resolve any_ret any_err any_ub any_cache any_mark any_column any_skip any_drop any_peek any_force : an.
Ltac an :=
  repeat (intros; match goal with
  | |- pw (bind _ _) any => apply any_bind
  | |- pw (loop _ _) any => apply any_loop
  | |- pw (if ?b then _ else _) any => destruct b
  | |- pw (match ?x with _ => _ end) any => destruct x
  | |- _ => solve [auto with an]
  end).
Lemma a_check k p : pw (check k p) any. Proof. unfold check. an. Qed.
Hint Resolve a_check : an.
Lemma a_andc a b : pw a any -> pw b any -> pw (andc a b) any. Proof. intros. unfold andc. an. Qed.
Lemma a_orc a b : pw a any -> pw b any -> pw (orc a b) any. Proof. intros. unfold orc. an. Qed.
Hint Resolve a_andc a_orc : an.
Lemma a_crlf : pw is_crlf any. Proof. unfold is_crlf. an. Qed.
Hint Resolve a_crlf : an.
Lemma a_skip_line : pw skip_line any. Proof. unfold skip_line. an. Qed.
Lemma a_read s : pw (read s) any. Proof. unfold read. an. Qed.
Lemma a_put s b : pw (put s b) any. Proof. unfold put. an. Qed.
Hint Resolve a_skip_line a_read a_put : an.
Lemma a_skip_while p : pw (skip_while p) any. Proof. unfold skip_while. an. Qed.
Lemma a_read_while p s : pw (read_while p s) any. Proof. unfold read_while. an. Qed.
Hint Resolve a_skip_while a_read_while : an.
Lemma a_to_next f a : pw (scan_to_next_token f a) any. Proof. unfold scan_to_next_token. an. Qed.
Lemma a_line_end s p : pw (scan_line_end s p) any. Proof. unfold scan_line_end. an. Qed.
Lemma a_directive_name s : pw (scan_directive_name s) any. Proof. unfold scan_directive_name. an. Qed.
Lemma a_version_number s : pw (scan_version_number s) any. Proof. unfold scan_version_number. an. Qed.
Hint Resolve a_to_next a_line_end a_directive_name a_version_number : an.
Lemma a_version_value s : pw (scan_version_value s) any. Proof. unfold scan_version_value. an. Qed.
Lemma a_tag_handle d s : pw (scan_tag_handle d s) any. Proof. unfold scan_tag_handle. an. Qed.
Lemma a_uri_escapes s x : pw (scan_uri_escapes s x) any. Proof. unfold scan_uri_escapes. an. Qed.
Hint Resolve a_version_value a_tag_handle a_uri_escapes : an.
Lemma a_tag_uri u h s : pw (scan_tag_uri u h s) any. Proof. unfold scan_tag_uri. an. Qed.
Hint Resolve a_tag_uri : an.
Lemma a_tag_directive_value s : pw (scan_tag_directive_value s) any. Proof. unfold scan_tag_directive_value. an. Qed.
Hint Resolve a_tag_directive_value : an.
Lemma a_triple x : pw (triple x) any. Proof. unfold triple. an. Qed.
Hint Resolve a_triple : an.
Lemma a_indicator : pw document_indicator any. Proof. unfold document_indicator. an. Qed.
Lemma a_header s : pw (scan_block_header s) any. Proof. unfold scan_block_header. an. Qed.
Lemma a_hex n : forall k s v, pw (scan_hex n k s v) any. Proof. induction n; intros; cbn [scan_hex]; an. Qed.
Lemma a_skip_n n : pw (skip_n n) any. Proof. induction n; cbn [skip_n]; an. Qed.
Hint Resolve a_indicator a_header a_hex a_skip_n : an.
Lemma a_escape s x : pw (scan_escape s x) any. Proof. unfold scan_escape. an. Qed.
Lemma a_plain_start f : pw (plain_start f) any. Proof. unfold plain_start. an. Qed.
Hint Resolve a_escape a_plain_start : an.
Lemma a_choose f : pw (choose f) any. Proof. unfold choose. an. Qed.

(* strings *)
Lemma m_read s : made s -> pw (read s) made.
Proof.
  intros H c C. unfold read, bind, peek. destruct (_ && _); [|exact I]. unfold skip, cl in *. destruct (c_text c) as [|x r]; [exact I|]. destruct (c_unread c); [exact I|].
  inversion C; subst. split; [assumption|]. apply made_app; [exact H|]. apply made_char. assumption.
Qed.
Lemma m_put s b : made s -> made b -> pw (put s b) made.
Proof. intros H K. unfold put. destruct (_ <=? _)%nat; [apply pw_ret; auto with mk|apply pw_ub]. Qed.
Lemma m_read_line s : made s -> pw (read_line s) made.
Proof.
  intros H. unfold read_line. eapply pw_bind; [apply a_crlf|]. intros b _. assert (K : forall k v, made v -> pw (drop_line k ;;; ret v) made).
  { intros k v Hv. eapply pw_bind; [apply any_drop|]. intros _ _. apply pw_ret. exact Hv. }
  destruct b; [apply K; auto with mk|]. eapply pw_bind; [apply pw_peek|]. intros x Hx. destruct (_ || _); [apply K; auto with mk|]. destruct (x =? 0x85); [apply K; auto with mk|].
  destruct ((x =? 0x2028) || (x =? 0x2029)) eqn:E; [|apply pw_ret; exact H]. apply K. apply made_app; [exact H|]. apply made_char. apply Hx. intros ->. discriminate.
Qed.
Lemma m_read_while p s : made s -> pw (read_while p s) made.
Proof.
  intros H. unfold read_while. apply (pw_loop _ made); [exact H|]. intros v Hv. eapply pw_bind; [apply a_check|]. intros [] _; [|apply pw_ret; exact Hv].
  eapply pw_bind; [apply m_read; exact Hv|]. intros v' Hv'. eapply pw_bind; [apply any_cache|]. intros _ _. apply pw_ret. exact Hv'.
Qed.
Ltac st := cbv zeta; first
  [ apply pw_ret | apply pw_err | apply pw_ub
  | eapply pw_bind; [first [apply m_read; solve [auto with mk] | apply m_read_line; solve [auto with mk] | apply m_read_while; solve [auto with mk]]|intros ? ?]
  | eapply (pw_bind _ _ any); [solve [an]|intros ? _] ].
Ltac dif := match goal with |- pw (if ?b then _ else _) _ => destruct b end.
Definition made3 (r : Z * list N * mark) : Prop := made (snd (fst r)).
Lemma m_breaks p i b s : made b -> pw (scan_block_scalar_breaks p i b s) made3.
Proof.
  intros H. unfold scan_block_scalar_breaks. st. eapply pw_bind; [apply (pw_loop _ made3 made3); [exact H|]|].
  - intros [[mi v] e] Hv. unfold made3 in Hv. cbn in Hv. st. st. st. st. dif; [st|]. st. dif; [st; exact Hv|]. st. st. st. st. assumption.
  - intros [[mi v] e] Hv. st. exact Hv.
Qed.
Definition fine (t : token) : Prop := match t_tok t with TScalar v s => s <> DoubleQuoted \/ ~ P 0x5C -> made v | _ => True end.
Lemma m_block p l : pw (scan_block_scalar p l) fine.
Proof.
  unfold scan_block_scalar. st. st. st. destruct a1 as [ch inc]. st.
  eapply pw_bind; [apply m_breaks; auto with mk|]. intros [[ind tr] e] Htr. unfold made3 in Htr. cbn in Htr. st.
  eapply pw_bind; [apply (pw_loop _ (fun r => made (fst (fst (fst (fst r)))) /\ made (snd (fst (fst (fst r)))) /\ made (snd (fst (fst r))))
                                    (fun r => made (fst (fst (fst (fst r)))) /\ made (snd (fst (fst (fst r)))) /\ made (snd (fst (fst r)))))|].
  - cbn. auto with mk.
  - intros [[[[s ld] tr'] lb] e'] (H1 & H2 & H3). cbn [fst snd] in *. st. st. dif; [st; cbn; auto|]. st.
    eapply (pw_bind _ _ made). { destruct (_ && _); [|apply pw_ret; auto with mk]. destruct (nonempty tr'); [apply pw_ret; exact H1|]. apply m_put; auto with mk. }
    intros s' Hs'. cbv zeta. st. st. st. st. eapply pw_bind; [apply m_breaks; auto with mk|]. intros [[i2 tr2] e2] H4. unfold made3 in H4. cbn in H4. st. cbn. auto.
  - intros [[[[s ld] tr'] lb] e'] (H1 & H2 & H3). cbn [fst snd] in *. cbv zeta. st. intros _. destruct ch as [[]|]; auto with mk.
Qed.
Lemma m_word b s v : (b = true \/ ~ P 0x5C) -> made v -> pw (scan_quoted_word b s v) (fun r => made (fst r)).
Proof.
  intros HB H. unfold scan_quoted_word. apply (pw_loop _ made); [exact H|]. clear v H. intros v Hv. st. dif; [st; exact Hv|].
  eapply pw_bind; [eapply (pw_andc _ _ any (fun x => x = true -> P 0x27) (fun x => x = true -> P 0x27)); [apply any_ret| | |]|].
  - intros _. eapply pw_andc; [apply pw_check|intros _; apply a_check| |discriminate]. intros K _ _. destruct (K eq_refl) as (x & E & Px). unfold eqc in E. apply N.eqb_eq in E. subst x. apply Px. discriminate.
  - auto.
  - discriminate.
  - intros pair Hp. destruct pair.
    + eapply pw_bind; [apply m_put; [exact Hv|apply (made_char 0x27); auto]|]. intros v' Hv'. st. st. st. st. exact Hv'.
    + st. dif; [st; exact Hv|]. st. dif; [st; st; st; st; exact Hv|].
      eapply pw_bind; [eapply (pw_andc _ _ (fun x => x = true -> b = false) (fun x => x = true -> P 0x5C) (fun x => x = true -> b = false /\ P 0x5C)); [apply pw_ret; destruct b; [discriminate|reflexivity]| | |discriminate]|].
      * intros _. eapply pw_mono; [apply pw_check|]. intros a K Ha. destruct (K Ha) as (x & E & Px). unfold eqc in E. apply N.eqb_eq in E. subst x. apply Px. discriminate.
      * auto.
      * intros es He. destruct es; [destruct (He eq_refl) as [-> Hx]; destruct HB; [discriminate|contradiction]|]. st. st. st. assumption.
Qed.
Definition made4 (b : blanks) : Prop := let '(_, ws, ld, tr) := b in made ws /\ made ld /\ made tr.
Lemma m_quoted_blanks b : made4 b -> pw (scan_quoted_blanks b) made4.
Proof.
  intros H. unfold scan_quoted_blanks. apply (pw_loop _ made4); [exact H|]. intros [[[lb ws] ld] tr] (H1 & H2 & H3). st.
  dif; [dif; [st; st; st; cbn; auto|st; st; st; cbn; auto]|]. dif; [|st; cbn; auto]. st. dif; st; st; st; cbn; auto with mk.
Qed.
Lemma m_fold s l t : made s -> made l -> made t -> pw (fold_breaks s l t) made.
Proof. intros. unfold fold_breaks. dif; [dif; [st; auto with mk|apply m_put; auto with mk]|st; auto with mk]. Qed.
Lemma m_flow b : pw (scan_flow_scalar b) fine.
Proof.
  assert (K : (b = true \/ ~ P 0x5C) -> pw (scan_flow_scalar b) fine).
  { intros HB. unfold scan_flow_scalar. st. st. eapply pw_bind; [apply (pw_loop _ made made); [auto with mk|]|].
    - intros v Hv. st. st. dif; [st|]. st. dif; [st|]. st. eapply pw_bind; [apply m_word; assumption|]. intros [v' lb] Hv'. cbn in Hv'. st. st. dif; [st; exact Hv'|]. st.
      eapply pw_bind; [apply m_quoted_blanks; repeat split; auto with mk|]. intros [[[lb' ws] ld] tr] (H1 & H2 & H3).
      eapply (pw_bind _ _ made). { dif; [apply m_fold; auto|st; auto with mk]. } intros v2 Hv2. st. exact Hv2.
    - intros v Hv. st. st. st. intros _. exact Hv. }
  destruct b; [apply K; auto|].
  intros c C. assert (D : pw (scan_flow_scalar false) (fun t => exists v a e, t = mkToken (TScalar v DoubleQuoted) a e false)).
  { unfold scan_flow_scalar. st. st. eapply pw_bind; [eapply pw_any, (pw_loop _ any any); [exact I|]|].
    - intros v _. assert (G : forall A B (m : cm A) (f : A -> B), pw m any -> pw m any) by auto. clear G.
      eapply pw_mono with (Q := any); [|intros [] _; exact I].
      assert (W : forall s v, pw (scan_quoted_word false s v) any) by (intros; unfold scan_quoted_word; an).
      assert (W2 : forall b, pw (scan_quoted_blanks b) any) by (intros; unfold scan_quoted_blanks, read_line; an).
      assert (W3 : forall s l t, pw (fold_breaks s l t) any) by (intros; unfold fold_breaks; an). an.
    - intros v _. st. st. st. eauto. }
  pose proof (D c C) as H1. destruct (scan_flow_scalar false c) as [t c'| | |] eqn:Et; auto. destruct H1 as (C' & v & a & e & ->). split; [exact C'|].
  intros [HN|HN]; [congruence|]. specialize (K (or_intror HN) c C). rewrite Et in K. destruct K as [_ K]. apply K. right. exact HN.
Qed.
Definition made6 (st : plain_state) : Prop := let '(s, b, _) := st in made s /\ made4 b.
Lemma m_plain_word f s st : made6 st -> pw (scan_plain_word f s st) made6.
Proof.
  intros H. unfold scan_plain_word. apply (pw_loop _ made6); [exact H|]. clear st H. intros [[v [[[lb ws] ld] tr]] e] (H0 & H1 & H2 & H3). st. dif; [st; cbn; auto|]. st. dif; [st|]. st. dif; [st; cbn; auto|].
  eapply (pw_bind _ _ made). { dif; [apply m_fold; auto|st; auto with mk]. } intros v2 Hv2. st. st. st. st. cbn. destruct lb; auto with mk.
Qed.
Lemma m_plain_blanks i s b : made4 b -> pw (scan_plain_blanks i s b) made4.
Proof.
  intros H. unfold scan_plain_blanks. apply (pw_loop _ made4); [exact H|]. intros [[[lb ws] ld] tr] (H1 & H2 & H3). st.
  dif; [st; dif; [st|]; dif; [st; st; st; cbn; auto|st; st; st; cbn; auto]|]. dif; [|st; cbn; auto]. st. dif; st; st; st; cbn; auto with mk.
Qed.
Lemma m_plain f i : pw (scan_plain_scalar f i) (fun r => fine (fst r)).
Proof.
  unfold scan_plain_scalar. st. eapply pw_bind; [apply (pw_loop _ made6 made6); [cbn; auto with mk|]|].
  - intros x Hx. st. st. dif; [st; exact Hx|]. st. dif; [st; exact Hx|]. eapply pw_bind; [apply m_plain_word; exact Hx|]. intros [[v b] e] [Hv Hb]. st. dif; [st; cbn; auto|]. st.
    eapply pw_bind; [apply m_plain_blanks; exact Hb|]. intros b' Hb'. st. dif; st; cbn; auto.
  - intros [[v [[[lb ws] ld] tr]] e] (H0 & _). st. intros _. exact H0.
Qed.

(* the queue of tokens *)
Definition inv (s : sc) : Prop := cl (s_cur s) /\ Forall fine (s_tokens s).
Definition sp {A} (m : sm A) (Q : A -> Prop) : Prop := forall s, inv s -> match m s with SOk a s' => inv s' /\ Q a | _ => True end.
Lemma sp_bind {A B} (m : sm A) (k : A -> sm B) (Q1 : A -> Prop) (Q : B -> Prop) : sp m Q1 -> (forall a, Q1 a -> sp (k a) Q) -> sp (sbind m k) Q.
Proof. intros H K s C. unfold sbind. specialize (H s C). destruct (m s) as [a c'| | |]; auto. destruct H as [C' HQ]. exact (K a HQ c' C'). Qed.
Lemma sp_any {A B} (m : sm A) (k : A -> sm B) (Q : B -> Prop) : sp m any -> (forall a, sp (k a) Q) -> sp (sbind m k) Q.
Proof. intros H K. eapply sp_bind; [exact H|]. intros a _. apply K. Qed.
Lemma sp_ret {A} (a : A) (Q : A -> Prop) : Q a -> sp (sret a) Q. Proof. intros H s C. cbn. auto. Qed.
Lemma sp_lift {A} (m : cm A) (Q : A -> Prop) : pw m Q -> sp (lift m) Q.
Proof. intros H s [C F]. unfold lift. specialize (H _ C). destruct (m (s_cur s)) as [a c| | |]; auto. destruct H as [H1 H2]. split; [split; assumption|exact H2]. Qed.
Lemma sp_get : sp get any. Proof. intros s C. cbn. split; [exact C|exact I]. Qed.
Lemma sp_error {A} o p (Q : A -> Prop) : sp (serror o p) Q. Proof. intros s C. exact I. Qed.
Lemma sp_modify f : (forall s, s_cur (f s) = s_cur s /\ s_tokens (f s) = s_tokens s) -> sp (modify f) any.
Proof. intros H s [C F]. destruct (H s) as [E1 E2]. cbn. split; [|exact I]. split; [rewrite E1|rewrite E2]; assumption. Qed.
Lemma sp_enqueue t : fine t -> sp (enqueue t) any.
Proof. intros H s [C F]. cbn. split; [|exact I]. split; [exact C|]. cbn. apply Forall_app. auto. Qed.
Lemma sp_insert n t : fine t -> sp (queue_insert n t) any.
Proof.
  intros H s [C F]. unfold queue_insert. destruct (_ && _); [|exact I]. split; [|exact I]. split; [exact C|]. cbn. rewrite <- (firstn_skipn (N.to_nat (n - s_parsed s)) (s_tokens s)) in F. apply Forall_app in F as [F1 F2]. apply Forall_app. auto.
Qed.
Lemma sp_stale : sp stale_simple_keys any.
Proof. intros s C. unfold stale_simple_keys. destruct (stale _ _); [split; [exact C|exact I]|exact I]. Qed.
Lemma sp_remove : sp remove_simple_key any.
Proof. intros s C. unfold remove_simple_key. destruct (s_keys s); [exact I|]. destruct (_ && _); [exact I|]. split; [exact C|exact I]. Qed.
Lemma sp_decrease : sp decrease_flow_level any.
Proof. intros s C. unfold decrease_flow_level. destruct (_ =? _); [split; [exact C|exact I]|]. destruct (s_keys s); [exact I|]. split; [exact C|exact I]. Qed.
Lemma unroll_fine m c : forall is i q r, Forall fine q -> unroll m c i is q = Some r -> Forall fine (snd r).
Proof.
  induction is as [|i' is IH]; intros i q r F; cbn [unroll]; (destruct (c <? i)%Z; [|intros E; injection E as <-; exact F]); [discriminate|].
  apply IH. apply Forall_app. split; [exact F|]. constructor; [exact I|constructor].
Qed.
Lemma sp_unroll c : sp (unroll_indent c) any.
Proof.
  intros s [C F]. unfold unroll_indent. destruct (in_flow s); [split; [split; assumption|exact I]|]. destruct (unroll _ _ _ _ _) as [[[i is] q]|] eqn:E; [|exact I].
  split; [|exact I]. split; [exact C|]. cbn. exact (unroll_fine _ _ _ _ _ _ F E).
Qed.
Hint Resolve sp_get sp_stale sp_remove sp_decrease sp_unroll : sn.
Lemma fine_any k a b d : match k with TScalar _ _ => False | _ => True end -> fine (mkToken k a b d).
Proof. unfold fine. cbn. destruct k; auto; contradiction. Qed.
Ltac sn :=
  repeat (intros; match goal with
  | |- sp (sbind _ _) any => apply sp_any
  | |- sp (modify _) any => apply sp_modify; split; reflexivity
  | |- sp (allow _) any => apply sp_modify; split; reflexivity
  | |- sp (sret _) any => apply sp_ret; exact I
  | |- sp (serror _ _) any => apply sp_error
  | |- sp (enqueue (mkToken _ _ _ _)) any => apply sp_enqueue, fine_any; solve [exact I|assumption]
  | |- sp (queue_insert _ (mkToken _ _ _ _)) any => apply sp_insert, fine_any; solve [exact I|assumption]
  | |- sp (lift _) any => apply sp_lift; solve [an]
  | |- sp (if ?b then _ else _) any => destruct b
  | |- sp (match ?x with _ => _ end) any => destruct x
  | |- _ => solve [auto with sn]
  end).
Lemma sp_save : sp save_simple_key any. Proof. unfold save_simple_key. sn. Qed.
Lemma sp_increase : sp increase_flow_level any. Proof. unfold increase_flow_level. sn. Qed.
Lemma sp_roll c n t m : match t with TScalar _ _ => False | _ => True end -> sp (roll_indent c n t m) any.
Proof. intros H. unfold roll_indent. sn. Qed.
Hint Resolve sp_save sp_increase sp_roll : sn.
Lemma sp_reset : sp reset_block any. Proof. unfold reset_block. sn. Qed.
Hint Resolve sp_reset : sn.
Lemma sp_chars n t : match t with TScalar _ _ => False | _ => True end -> sp (fetch_chars n t) any.
Proof. intros H. unfold fetch_chars. sn. Qed.
Lemma sp_block_start p t : match t with TScalar _ _ => False | _ => True end -> sp (block_start p t) any.
Proof. intros H. unfold block_start. sn. Qed.
Lemma sp_tokens (m : cm token) : pw m fine -> sp (t <~ lift m ;; enqueue t) any.
Proof. intros H. eapply sp_bind; [apply sp_lift; exact H|]. intros t Ht. apply sp_enqueue. exact Ht. Qed.
Lemma f_directive : pw scan_directive fine.
Proof.
  unfold scan_directive. st. st. st. eapply (pw_bind _ _ fine).
  - dif; [st; st; st; exact I|]. dif; [st; st; st; exact I|]. st.
  - intros t Ht. st. st. exact Ht.
Qed.
Lemma f_anchor b : pw (scan_anchor b) fine.
Proof. unfold scan_anchor. st. st. st. eapply (pw_bind _ _ any); [an|]. intros v _. st. destruct v; [st|]. st. dif; st. destruct b; exact I. Qed.
Lemma f_tag f : pw (scan_tag f) fine.
Proof.
  unfold scan_tag. st. st. st. eapply (pw_bind _ _ (fun t => match t with TScalar _ _ => False | _ => True end)).
  - dif; [st; st; st; st; dif; [st|]; st; st; exact I|]. st. dif; [st; st; exact I|]. st. match goal with |- pw (match ?x with _ => _ end) _ => destruct x end; st; exact I.
  - intros t Ht. st. st. st. dif; [st|]. st. st. apply fine_any. exact Ht.
Qed.
Lemma sp_branch b : sp (fetch_branch b) any.
Proof.
  destruct b; cbn [fetch_branch];
  unfold fetch_stream_end, fetch_directive, fetch_document_indicator, fetch_flow_collection_start, fetch_flow_collection_end, fetch_flow_entry, fetch_block_entry, fetch_key, fetch_anchor, fetch_tag, fetch_block_scalar, fetch_flow_scalar.
  all: try (repeat (apply sp_any; [solve [sn]|intros ?]); apply sp_tokens; solve [apply f_directive|apply f_anchor|apply f_tag|apply m_block|apply m_flow]).
  all: try solve [repeat (apply sp_any; [first [apply sp_block_start; exact I|sn]|intros ?]); first [apply sp_chars; exact I|sn]].
  - unfold fetch_value. apply sp_any; [sn|]. intros s. apply sp_any; [|intros _; apply sp_chars; exact I]. destruct (s_keys s) as [|k ks]; [intros s' C; exact I|].
    destruct (k_possible k); [sn; apply sp_roll; exact I|]. apply sp_any; [apply sp_block_start; exact I|]. sn.
  - unfold fetch_plain_scalar. apply sp_any; [sn|intros _]. apply sp_any; [sn|intros _]. apply sp_any; [sn|intros s]. eapply sp_bind; [apply sp_lift, m_plain|]. intros r Hr.
    apply sp_any; [sn|intros _]. apply sp_enqueue. exact Hr.
  - intros s C. exact I.
Qed.
Lemma sp_next : sp fetch_next_token any.
Proof.
  unfold fetch_next_token, fetch_stream_start. pose proof a_choose as AC. pose proof sp_branch as AB. sn.
Qed.
Lemma sp_more n : sp (fetch_more_n n) any.
Proof.
  induction n as [|n IH]; intros s C; [exact I|]. cbn [fetch_more_n]. pose proof sp_next as AN. revert s C.
  assert (K : forall q : list token, sp (need <~ match q with [] => sret true | _ :: _ => stale_simple_keys ~;; s <~ get ;; sret (head_may_be_key s) end ;;
    (if need then fetch_next_token ~;; fetch_more_n n else modify (fun s => set_avail s true))) any) by (intros q; sn).
  intros s C. exact (K (s_tokens s) s C).
Qed.
Lemma scan_inv s : inv s -> match scan s with ScanToken t s' => fine t /\ inv s' | ScanNothing s' | ScanFail s' => inv s' | _ => True end.
Proof.
  intros C. unfold scan. destruct (_ || _); [exact C|].
  assert (K : match (if s_avail s then SOk tt s else fetch_more_tokens s) with SOk _ s' => inv s' | _ => True end).
  { destruct (s_avail s); [exact C|]. pose proof (sp_more (length (c_text (s_cur s)) + 3) s C) as H. unfold fetch_more_tokens. destruct (fetch_more_n _ s); auto. apply H. }
  destruct (if s_avail s then SOk tt s else fetch_more_tokens s) as [a s'|e| |]; auto.
  destruct K as [K1 K2]. destruct (s_tokens s') as [|t q]; [exact I|]. inversion K2; subst. split; [assumption|]. split; assumption.
Qed.
Lemma all_fine n : forall s, inv s -> Forall fine (fst (scan_all n s)).
Proof.
  induction n as [|n IH]; intros s C; [constructor|]. cbn [scan_all]. pose proof (scan_inv s C) as H. destruct (scan s) as [t s'|s'|s'| |]; try constructor.
  destruct H as [H1 H2]. specialize (IH s' H2). destruct (scan_all n s') as [l o]. constructor; assumption.
Qed.
End S.
