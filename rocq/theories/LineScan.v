(* Two runs of the scanner side by side, on a text and on the same text with LF for
   every line break: the scanners of each token. *)
From Verif Require Import Base ReaderModel Utf8Spec CharSpec Types CursorModel ScanModel ScannerModel PlanFree LineSpec LineCur.

Lemma nb_eqc c x : eqc c x = true -> is_break c = false -> is_break x = false.
Proof. unfold eqc. intros H K. apply N.eqb_eq in H. subst. exact K. Qed.
Lemma nb_alpha x : is_alpha x = true -> is_break x = false.
Proof. unfold is_alpha, is_digit, is_upper, is_lower, in_range, is_break. lia. Qed.
Lemma nb_digit x : is_digit x = true -> is_break x = false.
Proof. unfold is_digit, in_range, is_break. lia. Qed.
Lemma nb_hex x : is_hex x = true -> is_break x = false.
Proof. unfold is_hex, is_digit, in_range, is_break. lia. Qed.
Lemma nb_blank x : is_blank x = true -> is_break x = false.
Proof. unfold is_blank, is_space, is_tab, is_break. lia. Qed.
Lemma nb_space x : is_space x = true -> is_break x = false.
Proof. unfold is_blank, is_space, is_tab, is_break. lia. Qed.
Lemma nb_bom x : is_bom x = true -> is_break x = false.
Proof. unfold is_bom, is_break. lia. Qed.
Lemma nb_breakz x : is_breakz x = false -> is_break x = false.
Proof. unfold is_breakz. destruct (is_break x); [discriminate|reflexivity]. Qed.
Lemma nb_nbreakz x : negb (is_breakz x) = true -> is_break x = false.
Proof. unfold is_breakz. destruct (is_break x); [discriminate|reflexivity]. Qed.
Lemma nb_blankz x : is_blankz x = false -> is_break x = false.
Proof. unfold is_blankz, is_breakz. destruct (is_break x), (is_blank x); try discriminate; reflexivity. Qed.
Lemma nb_uri b x : uri_class b x = true -> is_break x = false.
Proof. unfold uri_class, is_alpha, is_digit, is_upper, is_lower, in_range, is_break. cbn [existsb]. destruct b; lia. Qed.
Lemma nb_flow x : flow_end x = true -> is_break x = false.
Proof. unfold flow_end, is_break. cbn [existsb]. lia. Qed.
Lemma nb_escape x : escape x <> None -> is_break x = false.
Proof. intros H. destruct (is_break x) eqn:B; [|reflexivity]. exfalso. apply H. unfold is_break in B. 
  assert (E : x = 0xD \/ x = 0xA \/ x = 0x85 \/ x = 0x2028 \/ x = 0x2029) by lia. destruct E as [->|[->|[->|[->| ->]]]]; reflexivity. Qed.
Create HintDb nbk.
#[export] Hint Resolve nb_alpha nb_digit nb_hex nb_blank nb_space nb_bom nb_breakz nb_nbreakz nb_blankz nb_uri nb_flow : nbk.
Ltac brk := cbn [nth] in *; repeat match goal with H : negb _ = false |- _ => apply negb_false_iff in H | H : negb _ = true |- _ => apply negb_true_iff in H end; first [assumption | solve [eauto 3 with nbk] | match goal with H : eqc _ ?x = true |- is_break ?x = false => exact (nb_eqc _ _ H eq_refl) | H : (?x =? _) = true |- is_break ?x = false => exact (nb_eqc _ _ H eq_refl) end | solve [unfold is_break, is_blank, is_space, is_tab, eqc, is_z in *; lia]].
Ltac nbs := first [apply nb0 | assumption | solve [eapply nb_tl; eassumption] | solve [eapply nb_le; [eassumption|lia]] |
  let i := fresh "i" in let Hi := fresh "Hi" in intros i Hi; do 4 (try (destruct i as [|i]; [solve [brk]|])); exfalso; lia].
Ltac nice := first [assumption | let x := fresh "x" in intros x; unfold nch; destruct (N.eqb_spec x 0xD) as [->|]; [reflexivity|]; destruct (N.eqb_spec x 0x85) as [->|]; reflexivity].

Section S.
Variable D : N -> N.
Notation rw := (rw D).
Notation ok := (ok D).
Notation nmark := (nmark D).
Notation ntoken := (ntoken D).
Definition same {A} (L : N) (a1 a2 : A) (t : list N) (m : mark) : Prop := a2 = a1 /\ ok L t m.

Lemma rw_peek_solid k t m (Q : N -> N -> list N -> mark -> Prop) : nb (S k) t -> Q (nth k t 0) (nth k t 0) t m -> rw (peek k) (peek k) t m Q.
Proof. intros B H. apply rw_peek; [eapply nb_le; [exact B|lia]|]. rewrite nch_same by (apply B; lia). exact H. Qed.
Ltac r1 := cbv beta; match goal with
  | |- rw (bind _ _) (bind _ _) _ _ _ => apply rw_bind
  | |- rw (ret _) (ret _) _ _ _ => apply rw_ret
  | |- rw (cache _) (cache _) _ _ _ => apply rw_cache
  | |- rw column column _ _ _ => apply rw_column
  | |- rw get_mark get_mark _ _ _ => apply rw_mark
  | |- rw (err _ _) (err _ _) _ _ _ => apply rw_err; reflexivity
  | |- rw ub ub _ _ _ => exact I
  | |- rw (check _ _) (check _ _) _ _ _ => apply rw_check; [solve [nbs]|solve [nice]|]
  | |- rw (peek _) (peek _) _ _ _ => apply rw_peek_solid; [solve [nbs]|]
  | |- rw (peek _) (peek _) _ _ _ => apply rw_peek; [solve [nbs]|]
  | |- rw (andc _ _) (andc _ _) _ _ _ => apply rw_andc
  | |- rw (orc _ _) (orc _ _) _ _ _ => apply rw_orc
  | |- ?x = ?x /\ (if _ then _ else _) => split; [reflexivity|]
  | |- _ = _ /\ LineCur.rw _ _ _ _ _ _ => split; [reflexivity|]
  | |- rw (if ?b then _ else _) (if ?b then _ else _) _ _ _ => let E := fresh "E" in destruct b eqn:E
  | |- (if ?b then rw _ _ _ _ _ else _) => let E := fresh "E" in destruct b eqn:E
  | |- (if ?b then _ else rw _ _ _ _ _) => let E := fresh "E" in destruct b eqn:E
  | |- rw skip skip _ _ _ => eapply rw_skip; [eassumption|solve [nbs]|let x := fresh "x" in let r := fresh "r" in let E := fresh "E" in let O := fresh "OK" in intros x r E O; subst]
  | |- rw (read _) (read _) _ _ _ => eapply rw_read; [eassumption|solve [nbs]|let x := fresh "x" in let r := fresh "r" in let E := fresh "E" in let O := fresh "OK" in intros x r E O; subst]
  | |- rw skip_line skip_line _ _ _ => eapply rw_skip_line; [eassumption|let t := fresh "t" in let m := fresh "m" in let O := fresh "OK" in intros t m O]
  | |- rw (read_line _) (read_line _) _ _ _ => eapply rw_read_line; [eassumption|let s := fresh "s" in let t := fresh "t" in let m := fresh "m" in let O := fresh "OK" in intros s t m O]
  end.
Ltac rr := repeat r1; cbv beta.
Ltac call H := eapply rw_mono; [eapply H; try eassumption; try nbs|]; let O := fresh "OK" in intros ? ? ? ? [-> O].
Ltac fin := solve [split; [reflexivity|eassumption]].
Ltac same_loop L := match goal with |- rw (loop _ _) (loop _ _) _ _ _ => eapply (rw_loop D _ _ (same L)); [intros ? a ? ? [-> ?]|fin] end.

Definition still {A} (a1 a2 : A) (t t' : list N) (m m' : mark) : Prop := a2 = a1 /\ t' = t /\ m' = m.
Lemma put_same s bs t m : rw (put s bs) (put s bs) t m (fun a1 a2 t' m' => still a1 a2 t t' m m').
Proof. unfold put. destruct (_ <=? _)%nat; rr. repeat split. Qed.
Lemma rw_skip_while L p t m : ok L t m -> nice p -> (forall x, p x = true -> is_break x = false) -> rw (skip_while p) (skip_while p) t m (same L).
Proof. intros O P H. unfold skip_while. same_loop L. rr; [|fin]. fin. Qed.
Lemma rw_read_while L p s t m : ok L t m -> nice p -> (forall x, p x = true -> is_break x = false) -> rw (read_while p s) (read_while p s) t m (same L).
Proof. intros O P H. unfold read_while. same_loop L. rr; [|fin]. fin. Qed.
Ltac while H := eapply rw_mono; [eapply H; [eassumption|solve [nice]|let x := fresh "x" in let E := fresh "E" in intros x E; solve [brk]]|]; let O := fresh "OK" in intros ? ? ? ? [-> O].
Ltac r2 := first [r1 | match goal with
  | |- rw (skip_while _) (skip_while _) _ _ _ => while rw_skip_while
  | |- rw (read_while _ _) (read_while _ _) _ _ _ => while rw_read_while
  | |- rw (put _ _) (put _ _) _ _ _ => eapply rw_mono; [apply put_same|intros ? ? ? ? (-> & -> & ->)]
  | |- rw (let '(_, _) := ?x in _) (let '(_, _) := ?x in _) _ _ _ => destruct x
  end | fin].
Ltac r3 := repeat r2; cbv beta.

Lemma s_to_next L flow allowed t m : ok L t m -> rw (scan_to_next_token flow allowed) (scan_to_next_token flow allowed) t m (same L).
Proof. intros O. unfold scan_to_next_token. same_loop L. r3. Qed.
Lemma s_line_end L s p t m : ok L t m -> rw (scan_line_end s p) (scan_line_end (nmark s) p) t m (same L).
Proof. intros O. unfold scan_line_end. r3. Qed.
Lemma s_directive_name L s t m : ok L t m -> rw (scan_directive_name s) (scan_directive_name (nmark s)) t m (same L).
Proof. intros O. unfold scan_directive_name. r3. Qed.
Lemma s_version_number L s t m : ok L t m -> rw (scan_version_number s) (scan_version_number (nmark s)) t m (same L).
Proof.
  intros O. unfold scan_version_number. do 3 r1. eapply rw_mono; [eapply (rw_loop D _ _ (same L) (same L)); [intros ? a ? ? [-> ?]|fin]|].
  - destruct a1 as [v n]. do 2 r1. destruct (is_digit (nth 0 t0 0)) eqn:E.
    + rewrite nch_same by (apply nb_digit; exact E). rewrite E. r3.
    + replace (is_digit (nch (nth 0 t0 0))) with false; [r3|]. rewrite <- E. symmetry. generalize (nth 0 t0 0). nice.
  - intros a1 a2 t' m' [-> O']. destruct a1 as [v n]. cbn [fst snd]. destruct n; r3.
Qed.
Ltac r4 := first [r2 | match goal with
  | |- rw (scan_version_number _) _ _ _ _ => call s_version_number
  | |- rw (scan_line_end _ _) _ _ _ _ => call s_line_end
  | |- rw (scan_directive_name _) _ _ _ _ => call s_directive_name
  end].
Lemma s_version_value L s t m : ok L t m -> rw (scan_version_value s) (scan_version_value (nmark s)) t m (same L).
Proof. intros O. unfold scan_version_value. repeat r4. Qed.
Lemma s_tag_handle L d s t m : ok L t m -> rw (scan_tag_handle d s) (scan_tag_handle d (nmark s)) t m (same L).
Proof. intros O. unfold scan_tag_handle. repeat r4. Qed.
Lemma s_uri_escapes L s v t m : ok L t m -> rw (scan_uri_escapes s v) (scan_uri_escapes (nmark s) v) t m (same L).
Proof.
  intros O. unfold scan_uri_escapes. same_loop L. destruct a1 as [[w f] v']. repeat r4.
  all: destruct f; [exact I|]; repeat r4.
  all: match goal with |- rw (match ?w with _ => _ end) _ _ _ _ => destruct w as [|[|w']] end; repeat r4.
Qed.
Ltac r5 := first [r4 | match goal with
  | |- rw (scan_uri_escapes _ _) _ _ _ _ => call s_uri_escapes
  | |- rw (scan_tag_handle _ _) _ _ _ _ => call s_tag_handle
  | |- rw (scan_version_value _) _ _ _ _ => call s_version_value
  end].
Lemma s_tag_uri L u h s t m : ok L t m -> rw (scan_tag_uri u h s) (scan_tag_uri u h (nmark s)) t m (same L).
Proof.
  intros O. unfold scan_tag_uri. do 3 r1. eapply rw_mono; [eapply (rw_loop D _ _ (same L) (same L)); [intros ? a ? ? [-> ?]|fin]|].
  - destruct a1 as [v b]. repeat r5.
  - intros a1 a2 t' m' [-> O']. repeat r5.
Qed.
Ltac r6 := first [r5 | match goal with |- rw (scan_tag_uri _ _ _) _ _ _ _ => call s_tag_uri end].
Lemma s_tag_directive_value L s t m : ok L t m -> rw (scan_tag_directive_value s) (scan_tag_directive_value (nmark s)) t m (same L).
Proof. intros O. unfold scan_tag_directive_value. repeat r6. Qed.
Definition same_token (L : N) (a1 a2 : token) (t : list N) (m : mark) : Prop := a2 = ntoken a1 /\ ok L t m.
Ltac fint := solve [split; [reflexivity|eassumption]].
Lemma s_directive L t m : ok L t m -> nb 1 t -> rw scan_directive scan_directive t m (same_token L).
Proof.
  intros O B. unfold scan_directive. repeat r6.
  call s_tag_directive_value. repeat r6.
Qed.
Lemma s_anchor L a t m : ok L t m -> nb 1 t -> rw (scan_anchor a) (scan_anchor a) t m (same_token L).
Proof. intros O B. unfold scan_anchor. repeat r6. Qed.
Lemma s_tag L f t m : ok L t m -> nb 1 t -> rw (scan_tag f) (scan_tag f) t m (same_token L).
Proof.
  intros O B. unfold scan_tag. repeat r6.
Qed.

Definition with_mark {A} (L : N) (a1 a2 : A * mark) (t : list N) (m : mark) : Prop := a2 = (fst a1, nmark (snd a1)) /\ ok L t m.
Lemma s_breaks L p i b s t m : ok L t m -> rw (scan_block_scalar_breaks p i b s) (scan_block_scalar_breaks p i b (nmark s)) t m (with_mark L).
Proof.
  intros O. unfold scan_block_scalar_breaks. do 2 r1.
  r1. eapply rw_mono; [eapply (rw_loop D _ _ (with_mark L) (with_mark L)); [intros ? a ? ? [-> ?]|fin]|].
  - destruct a1 as [[mi br] e]. cbn [fst snd]. do 3 r1.
    eapply rw_mono; [eapply (rw_loop D _ _ (same L) (same L)); [intros ? a ? ? [-> ?]|fin]|].
    + repeat r6.
    + intros a1 a2 t' m' [-> O']. repeat r6.
  - intros a1 a2 t' m' [-> O']. destruct a1 as [[mi br] e]. cbn [fst snd]. repeat r6.
Qed.
Lemma break_is x : is_break x = true -> x = 0xD \/ x = 0xA \/ x = 0x85 \/ x = 0x2028 \/ x = 0x2029.
Proof. unfold is_break. lia. Qed.
Lemma s_header L s t m : ok L t m -> rw (scan_block_header s) (scan_block_header (nmark s)) t m (same L).
Proof.
  assert (K : forall t (m : mark), is_break (nth 0 t 0) = true \/ nb 1 t).
  { intros t' m'. destruct (is_break (nth 0 t' 0)) eqn:E; [auto|]. right. intros [|i] Hi; [exact E|lia]. }
  intros O. unfold scan_block_header. do 3 r1. destruct (K t m) as [B|B].
  - apply rw_peek; [apply nb0|]. apply break_is in B.
    destruct B as [E|[E|[E|[E|E]]]]; rewrite E; change (rw (ret (@None bool, 0%Z)) (ret (@None bool, 0%Z)) t m (same L)); repeat r6.
  - repeat r6.
    + destruct (K r (next_column 1 m)) as [B'|B']; [|rewrite nch_same by (apply (B' 0%nat); lia); repeat r6]. apply break_is in B'.
      destruct B' as [E'|[E'|[E'|[E'|E']]]]; rewrite E'; match goal with |- rw (if is_digit _ then _ else ?a) _ _ _ _ => change (rw a a r (next_column 1 m) (same L)) end; repeat r6.
    + destruct (K r (next_column 1 m)) as [B'|B']; [|rewrite nch_same by (apply (B' 0%nat); lia); repeat r6]. apply break_is in B'.
      destruct B' as [E'|[E'|[E'|[E'|E']]]]; rewrite E'; match goal with |- rw (if (_ || _) then _ else ?a) _ _ _ _ => change (rw a a r (next_column 1 m) (same L)) end; repeat r6.
Qed.
Ltac r7 := first [r6 | match goal with
  | |- rw (scan_block_header _) _ _ _ _ => call s_header
  | |- rw (scan_block_scalar_breaks _ _ _ _) _ _ _ _ => call s_breaks end].
Lemma s_block_scalar L p l t m : ok L t m -> nb 1 t -> rw (scan_block_scalar p l) (scan_block_scalar p l) t m (same_token L).
Proof.
  intros O B. unfold scan_block_scalar. do 6 r7. destruct a1 as [ch inc]. do 3 r7.
  eapply rw_mono; [eapply s_breaks; eassumption|]. intros [[ind tr] e] ? t2 m2 [-> O2]. cbn [fst snd]. do 2 r7.
  r1. eapply rw_mono; [eapply (rw_loop D _ _ (with_mark L) (with_mark L)); [intros [[[[v ld] tr'] lb] e'] a ? ? [-> ?]|fin]|].
  - cbn [fst snd]. repeat r7.
    all: match goal with |- rw (let '(_, _) := ?a in _) _ _ _ _ => destruct a as [[ind' tr''] e''] end; cbn [fst snd]; repeat r7.
  - intros [[[[v ld] tr'] lb] e'] a2 t4 m4 [-> O']. cbn [fst snd]. repeat r7.
Qed.
Lemma nice_eqc c : is_break c = false -> nice (eqc c).
Proof.
  intros B x. assert (K : c <> 0xA /\ c <> 0xD /\ c <> 0x85) by (unfold is_break in B; lia). unfold eqc, nch.
  destruct (N.eqb_spec x 0xD) as [->|]; [cbn [orb]; lia|]. destruct (N.eqb_spec x 0x85) as [->|]; [|reflexivity]. cbn [orb]. lia.
Qed.
Lemma s_triple c t m : is_break c = false -> rw (triple c) (triple c) t m (fun a1 a2 t' m' => still a1 a2 t t' m m' /\ (a1 = true -> nb 3 t)).
Proof.
  intros B. pose proof (nice_eqc c B) as N. unfold triple. apply rw_andc, rw_check; [apply nb0|exact N|]. split; [reflexivity|]. destruct (eqc c (nth 0 t 0)) eqn:E0.
  2:{ split; [repeat split|discriminate]. }
  assert (B1 : nb 1 t) by (apply nbS; [apply nb0|eapply nb_eqc; eauto]).
  apply rw_andc, rw_check; [exact B1|exact N|]. split; [reflexivity|]. destruct (eqc c (nth 1 t 0)) eqn:E1.
  2:{ split; [repeat split|discriminate]. }
  assert (B2 : nb 2 t) by (apply nbS; [exact B1|eapply nb_eqc; eauto]).
  apply rw_check; [exact B2|exact N|]. split; [repeat split|]. intros E2. apply nbS; [exact B2|eapply nb_eqc; eauto].
Qed.
Lemma s_indicator t m : rw document_indicator document_indicator t m (fun a1 a2 t' m' => still a1 a2 t t' m m').
Proof.
  unfold document_indicator. repeat r1.
  - eapply rw_mono; [apply s_triple; reflexivity|]. intros a1 a2 t' m' [(-> & -> & ->) K]. split; [reflexivity|]. destruct a1.
    + split; [reflexivity|]. apply rw_check; [apply K; reflexivity|nice|]. repeat split.
    + eapply rw_mono; [apply s_triple; reflexivity|]. intros a1 a2 t' m' [(-> & -> & ->) K']. split; [reflexivity|]. destruct a1.
      * apply rw_check; [apply K'; reflexivity|nice|]. repeat split.
      * repeat split.
  - repeat split.
Qed.
Lemma s_hex n : forall k s v t m, nb k t ->
  rw (scan_hex n k s v) (scan_hex n k (nmark s) v) t m (fun a1 a2 t' m' => still a1 a2 t t' m m' /\ nb (k + n) t).
Proof.
  induction n as [|n IH]; intros k s v t m B; cbn [scan_hex].
  - apply rw_ret. split; [repeat split|]. rewrite Nat.add_0_r. exact B.
  - apply rw_bind, rw_peek; [exact B|]. destruct (is_hex (nth k t 0)) eqn:E.
    + rewrite nch_same by (apply nb_hex; exact E). rewrite E. replace (k + S n)%nat with (S k + n)%nat by lia. apply IH. apply nbS; [exact B|apply nb_hex; exact E].
    + replace (is_hex (nch (nth k t 0))) with false; [apply rw_err; reflexivity|]. rewrite <- E. symmetry. generalize (nth k t 0). nice.
Qed.
Lemma s_skip_n L n : forall t m, ok L t m -> nb n t -> rw (skip_n n) (skip_n n) t m (same L).
Proof.
  induction n as [|n IH]; intros t m O B; cbn [skip_n]; [apply rw_ret; fin|]. apply rw_bind. eapply rw_skip; [exact O|eapply nb_le; [exact B|lia]|].
  intros x r -> O'. apply IH; [exact O'|eapply nb_tl; exact B].
Qed.
Lemma s_escape L s v t m : ok L t m -> nb 1 t -> rw (scan_escape s v) (scan_escape (nmark s) v) t m (same L).
Proof.
  intros O B. unfold scan_escape. apply rw_bind, rw_peek; [exact B|].
  destruct (escape (nth 1 t 0)) as [r|] eqn:E.
  - assert (B1 : is_break (nth 1 t 0) = false) by (apply nb_escape; congruence). rewrite nch_same by exact B1. rewrite E. assert (B2 : nb 2 t) by (apply nbS; assumption).
    destruct r as [bs|n].
    + repeat r7.
    + do 7 r7. eapply rw_mono; [apply s_hex; apply nb0|]. intros a1 a2 t' m' [(-> & -> & ->) K]. repeat r7.
      eapply rw_mono; [eapply s_skip_n; eassumption|]. intros a2 a3 t' m' [-> O']. repeat r7.
  - replace (escape (nch (nth 1 t 0))) with (@None (list N + nat)); [apply rw_err; reflexivity|]. unfold nch. destruct (nth 1 t 0 =? 0xD); [reflexivity|]. destruct (nth 1 t 0 =? 0x85); [reflexivity|]. symmetry. exact E.
Qed.
Ltac r8 := first [r7 | match goal with
  | |- rw (scan_escape _ _) _ _ _ _ => call s_escape end].
Lemma s_quoted_word L b s v t m : ok L t m -> rw (scan_quoted_word b s v) (scan_quoted_word b (nmark s) v) t m (same L).
Proof.
  intros O. unfold scan_quoted_word. same_loop L. destruct b; repeat r8.
Qed.
Lemma n_blank x : is_blank (nch x) = is_blank x. Proof. revert x. nice. Qed.
Lemma n_break x : is_break (nch x) = is_break x. Proof. revert x. nice. Qed.
Lemma n_tab x : is_tab (nch x) = is_tab x. Proof. revert x. nice. Qed.
Lemma s_quoted_blanks L b t m : ok L t m -> rw (scan_quoted_blanks b) (scan_quoted_blanks b) t m (same L).
Proof.
  intros O. unfold scan_quoted_blanks. same_loop L. destruct a1 as [[[lb ws] ld] tr]. r1. apply rw_peek; [apply nb0|]. rewrite n_blank, n_break. repeat r8.
Qed.
Lemma s_fold L s ld tr t m : ok L t m -> rw (fold_breaks s ld tr) (fold_breaks s ld tr) t m (fun a1 a2 t' m' => still a1 a2 t t' m m').
Proof. intros O. unfold fold_breaks. repeat r8. all: repeat split. Qed.
Ltac r9 := first [r8 | match goal with
  | |- rw (fold_breaks _ _ _) _ _ _ _ => eapply rw_mono; [eapply s_fold; eassumption|intros ? ? ? ? (-> & -> & ->)]
  | |- rw (scan_quoted_word _ _ _) _ _ _ _ => call s_quoted_word
  | |- rw (scan_quoted_blanks _) _ _ _ _ => call s_quoted_blanks
  | |- rw document_indicator _ _ _ _ => eapply rw_mono; [apply s_indicator|intros ? ? ? ? (-> & -> & ->)]
  end].
Lemma s_flow_scalar L b t m : ok L t m -> nb 1 t -> rw (scan_flow_scalar b) (scan_flow_scalar b) t m (same_token L).
Proof.
  intros O B. unfold scan_flow_scalar. do 5 r9.
  eapply rw_mono; [eapply (rw_loop D _ _ (same L) (fun a1 a2 t m => same L a1 a2 t m /\ nb 1 t)); [intros a1 a2 t1 m1 [-> O1]|fin]|].
  - do 11 r9. destruct b; repeat r9; (split; [fin|nbs]).
  - intros a1 a2 t1 m1 [[-> O1] B1]. repeat r9.
Qed.
Definition plain_post (L : N) (a1 a2 : plain_state) (t : list N) (m : mark) : Prop := a2 = (fst a1, nmark (snd a1)) /\ ok L t m.
Lemma s_plain_word L f s st t m : ok L t m -> rw (scan_plain_word f s st) (scan_plain_word f (nmark s) (fst st, nmark (snd st))) t m (plain_post L).
Proof.
  intros O. unfold scan_plain_word. eapply (rw_loop D _ _ (plain_post L)); [|fin]. intros [[v [[[lb ws] ld] tr]] e] a2 t1 m1 [-> O1]. cbn [fst snd].
  destruct f; repeat r9.
Qed.
Lemma s_plain_blanks L i s b t m : ok L t m -> rw (scan_plain_blanks i s b) (scan_plain_blanks i (nmark s) b) t m (same L).
Proof.
  intros O. unfold scan_plain_blanks. same_loop L. destruct a1 as [[[lb ws] ld] tr]. r1. apply rw_peek; [apply nb0|]. rewrite n_blank, n_break, n_tab. repeat r9.
Qed.
Lemma s_plain L f p t m : ok L t m ->
  rw (scan_plain_scalar f p) (scan_plain_scalar f p) t m (fun a1 a2 t m => a2 = (ntoken (fst a1), snd a1) /\ ok L t m).
Proof.
  intros O. unfold scan_plain_scalar. do 3 r9.
  eapply rw_mono; [eapply (rw_loop D _ _ (plain_post L) (plain_post L)); [intros a1 a2 t1 m1 [-> O1]|fin]|].
  - repeat r9. eapply rw_mono; [eapply s_plain_word; eassumption|]. intros [[v b] e] a3 t2 m2 [-> O2]. cbn [fst snd]. repeat r9.
    eapply rw_mono; [eapply s_plain_blanks; eassumption|]. intros b2 a3 t3 m3 [-> O3]. repeat r9.
  - intros [[v [[[lb ws] ld] tr]] e] a2 t1 m1 [-> O1]. cbn [fst snd]. repeat r9.
Qed.
Definition headed (b : branch) (t : list N) : Prop :=
  match b with BStreamEnd => nth 0 t 0 = 0 | BPlain | BError => True | BDocStart | BDocEnd => nb 3 t | _ => nb 1 t end.
Lemma s_plain_start f t m : rw (plain_start f) (plain_start f) t m (fun a1 a2 t' m' => still a1 a2 t t' m m').
Proof. unfold plain_start. destruct f; repeat r9. all: repeat split. Qed.
Lemma n_eqb c x : is_break c = false -> (nch x =? c) = (x =? c).
Proof. intros B. exact (nice_eqc c B x). Qed.
Lemma n_z x : is_z (nch x) = is_z x. Proof. revert x. nice. Qed.
Ltac fin3 := solve [split; [repeat split|first [exact I|cbn [headed]; nbs]]].
Lemma s_choose f t m : rw (choose f) (choose f) t m (fun a1 a2 t' m' => still a1 a2 t t' m m' /\ headed a1 t).
Proof.
  unfold choose. do 3 r1. apply rw_peek; [apply nb0|]. rewrite n_z, !n_eqb by reflexivity.
  destruct (is_z (nth 0 t 0)) eqn:E1; [apply rw_ret; split; [repeat split|apply N.eqb_eq; exact E1]|]. destruct ((m_column m =? 0) && (nth 0 t 0 =? 0x25)) eqn:E2; [r9; apply andb_prop in E2 as [_ E2]; fin3|].
  assert (Doc : forall c b (k1 k2 : cm branch), is_break c = false -> headed b = nb 3 -> 
     rw k1 k2 t m (fun a1 a2 t' m' => still a1 a2 t t' m m' /\ headed a1 t) ->
     rw (b' <- andc (ret (m_column m =? 0)) (andc (triple c) (check 3 is_blankz)) ;; if b' then ret b else k1)
        (b' <- andc (ret (m_column m =? 0)) (andc (triple c) (check 3 is_blankz)) ;; if b' then ret b else k2) t m
        (fun a1 a2 t' m' => still a1 a2 t t' m m' /\ headed a1 t)).
  { intros c b k1 k2 Bc Hb K. apply rw_bind, rw_andc, rw_ret. split; [reflexivity|]. destruct (m_column m =? 0); [|exact K]. apply rw_andc. eapply rw_mono; [apply s_triple; exact Bc|].
    intros a1 a2 t' m' [(-> & -> & ->) K3]. split; [reflexivity|]. destruct a1; [|exact K]. apply rw_check; [apply K3; reflexivity|nice|].
    destruct (is_blankz (nth 3 t 0)); [|exact K]. apply rw_ret. split; [repeat split|]. rewrite Hb. auto. }
  apply Doc; [reflexivity|reflexivity|]. apply Doc; [reflexivity|reflexivity|].
  clear Doc E1 E2. destruct f; repeat r9.
  all: try fin3.
  all: eapply rw_mono; [apply s_plain_start|intros a1 a2 t' m' (-> & -> & ->)]; destruct a1; apply rw_ret; fin3.
Qed.
End S.
