(* The specification of LexSpec.v says one thing only of each text. *)
From Verif Require Import Base ReaderModel Utf8Spec Utf8Lemmas CharSpec Types CursorModel ScanModel ScannerModel CursorProofs ScanProofs ScanQuoted RoundSpec LexSpec GapExact QuotedExact.

Definition white (x : N) : Prop := is_blank x = true \/ is_break x = true.
Lemma blank_break x : is_blank x = true -> is_break x = false.
Proof. intros H. cls. Qed.
Lemma cons_app {A} (x : A) l l' : x :: l ++ l' = (x :: l) ++ l'.
Proof. reflexivity. Qed.
Lemma white_split W t W' t' : Forall white W -> Forall white W' -> not_white t -> not_white t' -> W ++ t = W' ++ t' -> W = W' /\ t = t'.
Proof.
  intros F. revert W'. induction F as [|x W X F IH]; intros W' F' N N' E0.
  - destruct W' as [|y W']; [auto|]. cbn [app] in E0. subst t. exfalso. apply Forall_inv in F'. destruct N as [N1 N2]. cbn [nth] in *. destruct F'; congruence.
  - destruct W' as [|y W'].
    + cbn [app] in E0. subst t'. exfalso. destruct N' as [N1 N2]. cbn [nth] in *. destruct X; congruence.
    + cbn [app] in E0. injection E0 as -> E0. apply Forall_inv_tail in F'. destruct (IH W' F' N N' E0) as [-> ->]. auto.
Qed.
Lemma break_cases b : line_break b -> b = [0xD; 0xA] \/ exists x, b = [x] /\ is_break x = true.
Proof. intros H. destruct (line_break_some _ H) as (Nb & _). unfold line_break in H. destruct H as [(x & H & E)|H]; [right; exists x; auto|left; exact H]. Qed.

(* empty lines, read from the beginning *)
Definition walk (a : bool * list N * N) (x : N) : bool * list N * N :=
  let '(cr, v, col) := a in
  if is_break x then if cr && (x =? 10) then (false, v, 0) else (x =? 0xD, v ++ [break_value [x]], 0) else (false, v, col + 1).
Lemma last_one {A} (l : list A) x d : last (l ++ [x]) d = x.
Proof. apply last_last. Qed.
Lemma lines_walk (ok : N -> N -> Prop) b s v col : (forall x c, ok x c -> is_blank x = true) -> lines ok b s v col ->
  fold_left walk s (last b 0 =? 0xD, [], 0) = (last (b ++ s) 0 =? 0xD, v, col).
Proof.
  intros O. induction 1 as [|s v col x L IH X|s v col b' L IH B N1].
  - rewrite app_nil_r. reflexivity.
  - rewrite fold_left_app, IH, app_assoc, last_one. cbn [fold_left walk]. pose proof (O _ _ X) as Bx. rewrite (blank_break _ Bx). replace (x =? 0xD) with false by (clear -Bx; cls). reflexivity.
  - rewrite fold_left_app, IH. destruct (break_cases _ B) as [->|(x & -> & Bx)]; cbn [fold_left walk].
    + change (s ++ [0xD; 0xA]) with (s ++ [0xD] ++ [0xA]). rewrite !app_assoc, last_one. cbn. rewrite andb_false_r. reflexivity.
    + rewrite Bx, app_assoc, last_one. destruct (N.eqb_spec (last (b ++ s) 0) 0xD) as [Lc|Lc]; [|reflexivity]. cbn [andb]. destruct (N.eqb_spec x 10) as [->|Nx]; [destruct (N1 Lc eq_refl)|]. reflexivity.
Qed.
Lemma break_white b : line_break b -> Forall white b.
Proof. intros B. destruct (break_cases _ B) as [->|(x & -> & Bx)].
  - constructor; [right; reflexivity|]. constructor; [right; reflexivity|constructor].
  - constructor; [right; exact Bx|constructor].
Qed.
Lemma lines_white (ok : N -> N -> Prop) b s v col : (forall x c, ok x c -> is_blank x = true) -> lines ok b s v col -> Forall white s.
Proof.
  intros O. induction 1 as [|s v col x L IH X|s v col b' L IH B N1]; [constructor| |]; apply Forall_app; (split; [exact IH|]).
  - constructor; [left; eapply O; exact X|constructor].
  - apply break_white. exact B.
Qed.
Lemma snoc_eq {A} (s s' : list A) x s1 y : s ++ x :: s1 = s' ++ [y] -> s1 = [] /\ s = s' /\ x = y \/ exists s2, s1 = s2 ++ [y] /\ s' = s ++ x :: s2.
Proof.
  intros E0. destruct s1 as [|z s1]; [left; apply app_inj_tail in E0 as [-> ->]; auto|right].
  assert (N0 : z :: s1 <> []) by discriminate. destruct (exists_last N0) as (s2 & w & Ew). rewrite Ew in *. exists s2. change (s ++ x :: s2 ++ [w]) with (s ++ (x :: s2) ++ [w]) in E0. rewrite app_assoc in E0.
  apply app_inj_tail in E0 as [<- ->]. auto.
Qed.
Lemma lines_prefix (ok : N -> N -> Prop) b s v col x s1 v' col' : (forall x c, ok x c -> is_blank x = true) -> lines ok b s v col ->
  lines ok b (s ++ x :: s1) v' col' -> is_break x = true \/ ok x col.
Proof.
  intros O L L'. remember (s ++ x :: s1) as S eqn:ES. revert s1 ES. induction L' as [|S v0 c0 y L' IH Y|S v0 c0 b' L' IH B N1]; intros s1 ES.
  - destruct s; discriminate.
  - symmetry in ES. destruct (snoc_eq _ _ _ _ _ ES) as [(-> & -> & ->)|(s2 & -> & E2)]; [|exact (IH _ E2)].
    right. pose proof (lines_walk _ _ _ _ _ O L) as W. rewrite (lines_walk _ _ _ _ _ O L') in W. injection W as _ ->. exact Y.
  - destruct (break_cases _ B) as [->|(y & -> & By)]; symmetry in ES.
    + change (S ++ [0xD; 0xA]) with (S ++ [0xD] ++ [0xA]) in ES. rewrite app_assoc in ES. destruct (snoc_eq _ _ _ _ _ ES) as [(_ & _ & ->)|(s2 & _ & E2)]; [left; reflexivity|].
      symmetry in E2. destruct (snoc_eq _ _ _ _ _ E2) as [(_ & _ & ->)|(s3 & _ & E3)]; [left; reflexivity|exact (IH _ E3)].
    + destruct (snoc_eq _ _ _ _ _ ES) as [(_ & _ & ->)|(s2 & _ & E2)]; [left; exact By|exact (IH _ E2)].
Qed.
Lemma lines_unique (ok : N -> N -> Prop) b s v col t s' v' col' t' : (forall x c, ok x c -> is_blank x = true) -> lines ok b s v col -> lines ok b s' v' col' ->
  is_break (head t) = false -> is_break (head t') = false -> ~ ok (head t) col -> ~ ok (head t') col' -> s ++ t = s' ++ t' -> s = s' /\ v = v' /\ col = col' /\ t = t'.
Proof.
  intros O L L' B B' N1 N1' E0. destruct (app_eq_app _ _ _ _ E0) as (l & [[E1 E2]|[E1 E2]]); destruct l as [|x l].
  - cbn [app] in E2. rewrite app_nil_r in E1. subst s' t'. pose proof (lines_walk _ _ _ _ _ O L) as W. rewrite (lines_walk _ _ _ _ _ O L') in W. injection W as -> ->. auto.
  - exfalso. subst s t'. destruct (lines_prefix _ _ _ _ _ _ _ _ _ O L' L) as [X|X]; [cbn [app nth] in B'; congruence|exact (N1' X)].
  - cbn [app] in E2. rewrite app_nil_r in E1. subst s' t. pose proof (lines_walk _ _ _ _ _ O L) as W. rewrite (lines_walk _ _ _ _ _ O L') in W. injection W as -> ->. auto.
  - exfalso. subst s' t. destruct (lines_prefix _ _ _ _ _ _ _ _ _ O L L') as [X|X]; [cbn [app nth] in B; congruence|exact (N1 X)].
Qed.
Lemma lines_not_lf (ok : N -> N -> Prop) b s v col : (forall x c, ok x c -> is_blank x = true) -> lines ok b s v col -> last b 0 = 0xD -> head s <> 0xA.
Proof.
  intros O L C. induction L as [|s v col x L IH X|s v col b' L IH B N1]; [discriminate| |].
  - destruct s; [|exact IH]. cbn. intros ->. apply O in X. discriminate.
  - destruct s; [|exact IH]. rewrite app_nil_r in N1. cbn [app]. destruct (break_cases _ B) as [->|(y & -> & By)]; [discriminate|]. cbn. intros ->. exact (N1 C eq_refl).
Qed.
Lemma break_unique b s b' s' : line_break b -> line_break b' -> b ++ s = b' ++ s' -> (b = [0xD] -> head s <> 0xA) -> (b' = [0xD] -> head s' <> 0xA) -> b = b' /\ s = s'.
Proof.
  intros B B' E0 N1 N2. destruct (break_cases _ B) as [->|(y & -> & By)], (break_cases _ B') as [->|(y' & -> & By')]; cbn [app] in E0.
  - injection E0 as ->. auto.
  - injection E0 as <- <-. exfalso. exact (N2 eq_refl eq_refl).
  - injection E0 as -> ->. exfalso. exact (N1 eq_refl eq_refl).
  - injection E0 as -> ->. auto.
Qed.
(* behind [b], the lines [s] and the text [t] *)
Lemma lines_head (ok : N -> N -> Prop) b s v col t : (forall x c, ok x c -> is_blank x = true) -> lines ok b s v col -> is_break (head t) = false -> b = [0xD] -> head (s ++ t) <> 0xA.
Proof.
  intros O L B ->. destruct s as [|x s]; cbn [app]; [intros E0; rewrite E0 in B; discriminate|]. exact (lines_not_lf _ _ _ _ _ O L eq_refl).
Qed.
Lemma fold_unique (ok : N -> N -> Prop) b s v col t b' s' v' col' t' : (forall x c, ok x c -> is_blank x = true) -> line_break b -> line_break b' -> lines ok b s v col -> lines ok b' s' v' col' ->
  is_break (head t) = false -> is_break (head t') = false -> ~ ok (head t) col -> ~ ok (head t') col' -> b ++ s ++ t = b' ++ s' ++ t' -> b = b' /\ s = s' /\ v = v' /\ col = col' /\ t = t'.
Proof.
  intros O B B' L L' N1 N1' K K' E0. destruct (break_unique _ _ _ _ B B' E0) as [-> E1]; [eapply lines_head; eassumption|eapply lines_head; eassumption|].
  destruct (lines_unique _ _ _ _ _ _ _ _ _ _ O L L' N1 N1' K K' E1) as (-> & -> & -> & ->). auto.
Qed.
Lemma blanks_unique w t w' t' : Forall (fun x => is_blank x = true) w -> Forall (fun x => is_blank x = true) w' -> is_blank (head t) = false -> is_blank (head t') = false -> w ++ t = w' ++ t' -> w = w' /\ t = t'.
Proof.
  intros F. revert w'. induction F as [|x w X F IH]; intros w' F' N1 N1' E0.
  - destruct w' as [|y w']; [auto|]. cbn [app] in E0. subst t. exfalso. apply Forall_inv in F'. cbn [nth] in *. congruence.
  - destruct w' as [|y w'].
    + cbn [app] in E0. subst t'. exfalso. cbn [nth] in *. congruence.
    + cbn [app] in E0. injection E0 as -> E0. apply Forall_inv_tail in F'. destruct (IH w' F' N1 N1' E0) as [-> ->]. auto.
Qed.
Lemma break_not_blank b t : line_break b -> is_blank (head (b ++ t)) = false /\ is_break (head (b ++ t)) = true.
Proof. intros B. destruct (break_cases _ B) as [->|(x & -> & Bx)]; cbn; [auto|]. split; [|exact Bx]. destruct (is_blank x) eqn:E0; [|reflexivity]. rewrite (blank_break _ E0) in Bx. discriminate. Qed.
Lemma not_white_blank t : not_white t -> is_blank (head t) = false /\ is_break (head t) = false.
Proof. auto. Qed.

(* ---- plain scalars ---- *)
Lemma indented_is_blank indent x c : indented_blank indent x c -> is_blank x = true.
Proof. intros [->|[-> _]]; reflexivity. Qed.
Lemma word_white flow x t : in_word flow x t -> not_white (x :: t).
Proof. intros (B & _). unfold not_white. cbn [nth]. split; cls. Qed.
Lemma begins_white flow t : word_begins flow t -> not_white t.
Proof. intros (x & t' & -> & _ & W). exact (word_white _ _ _ W). Qed.
Lemma indicator_white x : flow_indicator x = true -> is_blank x = false /\ is_break x = false.
Proof. unfold flow_indicator. cbn [existsb]. rewrite !orb_true_iff, !N.eqb_eq. intros [->|[->|[->|[->|[->|]]]]]; try discriminate; split; reflexivity. Qed.
Lemma stops_white flow t : word_stops flow t -> not_white t.
Proof. unfold not_white. intros [->|[[-> _]|[_ H]]]; [split; reflexivity|split; reflexivity|]. apply indicator_white. exact H. Qed.
Lemma stops_word flow x t : word_stops flow (x :: t) -> in_word flow x t -> False.
Proof.
  intros S0 (B & C & F). destruct S0 as [H|[[H1 H2]|[H1 H2]]]; cbn [nth] in *.
  - subst x. discriminate.
  - apply C in H1. congruence.
  - destruct (F H1) as [F1 _]. congruence.
Qed.
Lemma stops_begins flow t : word_stops flow t -> word_begins flow t -> False.
Proof. intros S0 (x & t' & -> & _ & W). eapply stops_word; eauto. Qed.
Lemma hash_begins flow t : head t = 0x23 -> word_begins flow t -> False.
Proof. intros H (x & t' & -> & N1 & W). exact (N1 H). Qed.
Section Plain.
Variables (flow : bool) (indent : Z).
Definition blanks_cases (w t v r : list N) (lb : bool) : Prop :=
  (exists v', w <> [] /\ word_begins flow t /\ v = w ++ v' /\ plain flow indent t v' r lb) \/
  v = [] /\ r = t /\ lb = false /\ (word_stops flow t \/ w <> [] /\ head t = 0x23).
Definition lines_cases (b : list N) (bs : list N) (col : N) (t v r : list N) (lb : bool) : Prop :=
  (exists v', word_begins flow t /\ (flow = true \/ (indent <= Z.of_N col)%Z) /\ (col = 0 -> ~ document_marker t) /\ v = folded (break_value b) bs ++ v' /\ plain flow indent t v' r lb) \/
  v = [] /\ r = t /\ lb = true /\ (word_stops flow t \/ head t = 0x23 \/ col = 0 /\ document_marker t \/ flow = false /\ (Z.of_N col < indent)%Z).
Definition word_case (t v r : list N) (lb : bool) : Prop := exists x t' v', t = x :: t' /\ v = x :: v' /\ in_word flow x t' /\ plain flow indent t' v' r lb.
Lemma plain_cases T v r lb : plain flow indent T v r lb ->
  word_case T v r lb \/
  (exists w t, T = w ++ t /\ Forall (fun x => is_blank x = true) w /\ not_white t /\ blanks_cases w t v r lb) \/
  (exists w b s bs col t, T = w ++ b ++ s ++ t /\ Forall (fun x => is_blank x = true) w /\ line_break b /\ lines (indented_blank indent) b s bs col /\ not_white t /\ lines_cases b bs col t v r lb).
Proof.
  destruct 1 as [x t v r lb W P|w t v r lb Nw F W P|w b s bs col t v r lb F B L W C M P|w r F C|w b s bs col r F B L W C].
  - left. exists x, t, v. auto.
  - right. left. exists w, t. split; [reflexivity|]. split; [exact F|]. split; [eapply begins_white; eauto|]. left. exists v. auto.
  - right. right. exists w, b, s, bs, col, t. split; [reflexivity|]. split; [exact F|]. split; [exact B|]. split; [exact L|]. split; [eapply begins_white; eauto|]. left. exists v. auto.
  - right. left. exists w, r. split; [reflexivity|]. split; [exact F|]. split; [|right; auto]. destruct C as [C|[_ C]]; [eapply stops_white; eauto|]. unfold not_white. rewrite C. split; reflexivity.
  - right. right. exists w, b, s, bs, col, r. split; [reflexivity|]. split; [exact F|]. split; [exact B|]. split; [exact L|]. split; [exact W|]. right. auto.
Qed.
Lemma inv_blanks w t v r lb : Forall (fun x => is_blank x = true) w -> not_white t -> plain flow indent (w ++ t) v r lb -> w = [] /\ word_case t v r lb \/ blanks_cases w t v r lb.
Proof.
  intros F W P. destruct (plain_cases _ _ _ _ P) as [(x & t' & v' & E0 & -> & I0 & P')|[(w1 & t1 & E0 & F1 & W1 & C)|(w1 & b & s & bs & col & t1 & E0 & F1 & B & L & W1 & C)]].
  - left. destruct w as [|y w]; [split; [reflexivity|]; exists x, t', v'; auto|]. exfalso. cbn [app] in E0. injection E0 as -> _. apply Forall_inv in F. apply word_white in I0 as [I0 _]. cbn [nth] in I0. congruence.
  - right. destruct (blanks_unique _ _ _ _ F F1 (proj1 W) (proj1 W1) E0) as [-> ->]. exact C.
  - exfalso. destruct (break_not_blank b (s ++ t1) B) as [B1 B2]. destruct (blanks_unique _ _ _ _ F F1 (proj1 W) B1 E0) as [_ E1]. destruct W as [_ W]. rewrite E1 in W. congruence.
Qed.
Lemma inv_lines w b s bs col t v r lb : Forall (fun x => is_blank x = true) w -> line_break b -> lines (indented_blank indent) b s bs col -> not_white t ->
  plain flow indent (w ++ b ++ s ++ t) v r lb -> lines_cases b bs col t v r lb.
Proof.
  intros F B L W P. destruct (break_not_blank b (s ++ t) B) as [B1 B2].
  assert (O : forall x c, indented_blank indent x c -> is_blank x = true) by (intros x c; apply indented_is_blank).
  destruct (plain_cases _ _ _ _ P) as [(x & t' & v' & E0 & -> & I0 & P')|[(w1 & t1 & E0 & F1 & W1 & C)|(w1 & b1 & s1 & bs1 & col1 & t1 & E0 & F1 & B0 & L1 & W1 & C)]].
  - exfalso. apply word_white in I0 as [I1 I2]. rewrite <- E0 in I1, I2. destruct w as [|y w]; cbn [app nth] in *; [congruence|]. apply Forall_inv in F. congruence.
  - exfalso. destruct (blanks_unique _ _ _ _ F F1 B1 (proj1 W1) E0) as [_ E1]. destruct W1 as [_ W1]. rewrite <- E1 in W1. congruence.
  - destruct (blanks_unique _ _ _ _ F F1 B1 (proj1 (break_not_blank b1 _ B0)) E0) as [_ E1].
    destruct (fold_unique _ _ _ _ _ _ _ _ _ _ _ O B B0 L L1 (proj2 W) (proj2 W1)) with (3 := E1) as (-> & -> & -> & -> & ->); [| |exact C].
    + intros X. apply O in X. rewrite (proj1 W) in X. discriminate.
    + intros X. apply O in X. rewrite (proj1 W1) in X. discriminate.
Qed.
Lemma inv_word x t v r lb : in_word flow x t -> plain flow indent (x :: t) v r lb -> exists v', v = x :: v' /\ plain flow indent t v' r lb.
Proof.
  intros W P. destruct (inv_blanks [] (x :: t) v r lb (Forall_nil _) (word_white _ _ _ W) P) as [[_ (y & t' & v' & E0 & -> & _ & P')]|[(v' & N0 & _)|(_ & _ & _ & [C|[C _]])]].
  - injection E0 as -> ->. eauto.
  - destruct (N0 eq_refl).
  - destruct (stops_word _ _ _ C W).
  - destruct (C eq_refl).
Qed.
Lemma inv_tab w b s bs col t v r lb : Forall (fun x => is_blank x = true) w -> line_break b -> lines (indented_blank indent) b s bs col -> (Z.of_N col < indent)%Z ->
  plain flow indent (w ++ b ++ s ++ 9 :: t) v r lb -> False.
Proof.
  intros F B L Lo P. destruct (break_not_blank b (s ++ 9 :: t) B) as [B1 B2].
  assert (O : forall x c, indented_blank indent x c -> is_blank x = true) by (intros x c; apply indented_is_blank).
  destruct (plain_cases _ _ _ _ P) as [(x & t' & v' & E0 & -> & I0 & P')|[(w1 & t1 & E0 & F1 & W1 & C)|(w1 & b1 & s1 & bs1 & col1 & t1 & E0 & F1 & B0 & L1 & W1 & C)]].
  - apply word_white in I0 as [I1 I2]. rewrite <- E0 in I1, I2. destruct w as [|y w]; cbn [app nth] in *; [congruence|]. apply Forall_inv in F. congruence.
  - destruct (blanks_unique _ _ _ _ F F1 B1 (proj1 W1) E0) as [_ E1]. destruct W1 as [_ W1]. rewrite <- E1 in W1. congruence.
  - destruct (blanks_unique _ _ _ _ F F1 B1 (proj1 (break_not_blank b1 _ B0)) E0) as [_ E1].
    destruct (break_unique _ _ _ _ B B0 E1) as [-> E2]; [eapply lines_head; [exact O|exact L|reflexivity]|eapply lines_head; [exact O|exact L1|apply W1]|].
    destruct (app_eq_app _ _ _ _ E2) as (l & [[E3 E4]|[E3 E4]]); destruct l as [|x l]; cbn [app] in E4.
    + rewrite E4 in W1. destruct W1; discriminate.
    + rewrite E4 in W1. destruct W1 as [W1 W2]. pose proof (lines_white _ _ _ _ _ O L) as Fw. rewrite E3 in Fw. apply Forall_app in Fw as [_ Fw]. apply Forall_inv in Fw. cbn [nth] in *. destruct Fw; congruence.
    + rewrite <- E4 in W1. destruct W1; discriminate.
    + injection E4 as <- _. rewrite E3 in L1. destruct (lines_prefix _ _ _ _ _ _ _ _ _ O L L1) as [X|[X|[_ X]]]; [discriminate|discriminate|lia].
Qed.
End Plain.

(* ---- block scalars ---- *)
Lemma span_unique (p : N -> bool) w t w' t' : Forall (fun x => p x = true) w -> Forall (fun x => p x = true) w' -> p (head t) = false -> p (head t') = false -> w ++ t = w' ++ t' -> w = w' /\ t = t'.
Proof.
  intros F. revert w'. induction F as [|x w X F IH]; intros w' F' N1 N1' E0.
  - destruct w' as [|y w']; [auto|]. cbn [app] in E0. subst t. exfalso. apply Forall_inv in F'. cbn [nth] in *. congruence.
  - destruct w' as [|y w'].
    + cbn [app] in E0. subst t'. exfalso. cbn [nth] in *. congruence.
    + cbn [app] in E0. injection E0 as -> E0. apply Forall_inv_tail in F'. destruct (IH w' F' N1 N1' E0) as [-> ->]. auto.
Qed.
Lemma line_unique w t w' t' : Forall (fun x => is_breakz x = false) w -> Forall (fun x => is_breakz x = false) w' -> is_breakz (head t) = true -> is_breakz (head t') = true -> w ++ t = w' ++ t' -> w = w' /\ t = t'.
Proof.
  intros F F' N1 N1'. apply (span_unique (fun x => negb (is_breakz x))); [| |rewrite N1; reflexivity|rewrite N1'; reflexivity]; eapply Forall_impl; try eassumption; intros x X; cbv beta in X; rewrite X; reflexivity.
Qed.
Lemma header_unique h c i r h' c' i' r' : block_header h c i r -> block_header h' c' i' r' -> h ++ r = h' ++ r' -> h = h' /\ c = c' /\ i = i' /\ r = r'.
Proof.
  intros H1 H2. destruct H1, H2; cbn [app]; intros E0; inversion E0; subst; auto; exfalso; cbn [nth] in *; unfold sign, count, digit in *; lia.
Qed.
Lemma tail_unique w r w' r' : line_tail w r -> line_tail w' r' -> w ++ r = w' ++ r' -> w = w' /\ r = r'.
Proof.
  intros (bl & cm & -> & F & N1 & C) (bl' & cm' & -> & F' & N1' & C') E0. rewrite <- !app_assoc in E0. destruct (blanks_unique _ _ _ _ F F' N1 N1' E0) as [-> E1].
  destruct C as [[-> C]|(s & -> & Fs & Z)], C' as [[-> C']|(s' & -> & Fs' & Z')]; cbn [app] in E1.
  - subst r'. auto.
  - subst r. destruct (C eq_refl).
  - subst r'. destruct (C' eq_refl).
  - injection E1 as E1. destruct (line_unique _ _ _ _ Fs Fs' Z Z' E1) as [-> ->]. auto.
Qed.
Lemma low_is_blank indent x c : low_space indent x c -> is_blank x = true.
Proof. intros [-> _]. reflexivity. Qed.
Lemma begins_low indent col t : text_begins indent col t -> is_break (head t) = false /\ ~ low_space indent (head t) col.
Proof. intros [B L]. split; [exact B|]. intros [X Y]. destruct (L Y). contradiction. Qed.
Lemma break_z b t : line_break b -> is_breakz (head (b ++ t)) = true.
Proof. intros B. unfold is_breakz. destruct (break_not_blank b t B) as [_ ->]. reflexivity. Qed.
Lemma z_breakz t : head t = 0 -> is_breakz (head t) = true.
Proof. intros ->. reflexivity. Qed.
Lemma line_nz line t : line <> [] -> Forall (fun x => is_breakz x = false) line -> head (line ++ t) <> 0.
Proof. intros N0 F. destruct line as [|x l]; [destruct (N0 eq_refl)|]. cbn. intros ->. apply Forall_inv in F. discriminate. Qed.
Section Block.
Variables (literal : bool) (chomp : option bool) (indent : Z).
Notation rest := (block_rest literal chomp indent).
Lemma low_ok x c : low_space indent x c -> is_blank x = true.
Proof. apply low_is_blank. Qed.
Lemma rest_line k ld bs col line b s bs' col' t v r : Z.of_N col = indent -> line <> [] -> Forall (fun x => is_breakz x = false) line ->
  line_break b -> lines (low_space indent) b s bs' col' -> text_begins indent col' t -> rest k ld bs col (line ++ b ++ s ++ t) v r ->
  exists v', v = joined literal ld bs (k || is_blank (head line)) ++ line ++ v' /\ rest (is_blank (head line)) [break_value b] bs' col' t v' r.
Proof.
  intros Hc N0 F B L T P. pose proof (break_z b (s ++ t) B) as Z. destruct (begins_low _ _ _ T) as [T1 T2]. remember (line ++ b ++ s ++ t) as T0 eqn:E0. revert E0.
  destruct P as [k ld bs col T0 X|k ld bs col line1 b1 s1 bs1 col1 t1 v1 r1 Hc1 N1 F1 B1 L1 T3 P1|k ld bs col line1 t1 Hc1 N1 F1 Z1]; intros E0.
  - exfalso. subst T0. destruct X as [X|X]; [contradiction|]. exact (line_nz _ _ N0 F X).
  - destruct (line_unique _ _ _ _ F1 F (break_z b1 _ B1) Z E0) as [-> E1]. destruct (begins_low _ _ _ T3) as [T4 T5].
    destruct (fold_unique _ _ _ _ _ _ _ _ _ _ _ low_ok B1 B L1 L T4 T1 T5 T2 E1) as (-> & -> & -> & -> & ->). eauto.
  - exfalso. destruct (line_unique _ _ _ _ F1 F (z_breakz _ Z1) Z E0) as [_ E1]. destruct (break_not_blank b (s ++ t) B) as [_ X]. rewrite <- E1, Z1 in X. discriminate.
Qed.
Lemma rest_last k ld bs col line t v r : Z.of_N col = indent -> line <> [] -> Forall (fun x => is_breakz x = false) line -> head t = 0 -> rest k ld bs col (line ++ t) v r ->
  v = joined literal ld bs (k || is_blank (head line)) ++ line /\ r = t.
Proof.
  intros Hc N0 F Z P. remember (line ++ t) as T0 eqn:E0. revert E0.
  destruct P as [k ld bs col T0 X|k ld bs col line1 b1 s1 bs1 col1 t1 v1 r1 Hc1 N1 F1 B1 L1 T3 P1|k ld bs col line1 t1 Hc1 N1 F1 Z1]; intros E0.
  - exfalso. subst T0. destruct X as [X|X]; [contradiction|]. exact (line_nz _ _ N0 F X).
  - exfalso. destruct (line_unique _ _ _ _ F1 F (break_z b1 _ B1) (z_breakz _ Z) E0) as [_ E1]. destruct (break_not_blank b1 (s1 ++ t1) B1) as [_ X]. rewrite E1, Z in X. discriminate.
  - destruct (line_unique _ _ _ _ F1 F (z_breakz _ Z1) (z_breakz _ Z) E0) as [-> ->]. auto.
Qed.
Lemma rest_end k ld bs col t v r : Z.of_N col <> indent \/ head t = 0 -> rest k ld bs col t v r -> v = chomped chomp ld bs /\ r = t.
Proof.
  intros C P. destruct P as [k ld bs col T0 X|k ld bs col line1 b1 s1 bs1 col1 t1 v1 r1 Hc1 N1 F1 B1 L1 T3 P1|k ld bs col line1 t1 Hc1 N1 F1 Z1]; [auto| |]; exfalso;
    (destruct C as [C|C]; [contradiction|exact (line_nz _ _ N1 F1 C)]).
Qed.
(* a tab where the indentation should be *)
Lemma lines_tab b s bs col t b1 s1 bs1 col1 t1 : line_break b -> line_break b1 -> lines (low_space indent) b s bs col -> low indent col -> lines (low_space indent) b1 s1 bs1 col1 -> text_begins indent col1 t1 ->
  b1 ++ s1 ++ t1 = b ++ s ++ 9 :: t -> False.
Proof.
  intros B B1 L Lo L1 T E0. destruct (begins_low _ _ _ T) as [T1 T2]. destruct (break_unique _ _ _ _ B1 B E0) as [-> E1]; [eapply lines_head; [exact low_ok|exact L1|exact T1]|eapply lines_head; [exact low_ok|exact L|reflexivity]|].
  destruct (app_eq_app _ _ _ _ E1) as (l & [[E2 E3]|[E2 E3]]); destruct l as [|x l]; cbn [app] in E3.
  - rewrite app_nil_r in E2. subst s1 t1. pose proof (lines_walk _ _ _ _ _ low_ok L) as W. rewrite (lines_walk _ _ _ _ _ low_ok L1) in W. injection W as _ ->. destruct T as [_ T]. destruct (T Lo) as [_ T']. exact (T' eq_refl).
  - injection E3 as <- _. rewrite E2 in L1. destruct (lines_prefix _ _ _ _ _ _ _ _ _ low_ok L L1) as [X|[X _]]; discriminate.
  - rewrite app_nil_r in E2. subst s. subst t1. pose proof (lines_walk _ _ _ _ _ low_ok L) as W. rewrite (lines_walk _ _ _ _ _ low_ok L1) in W. injection W as _ ->. destruct T as [_ T]. destruct (T Lo) as [_ T']. exact (T' eq_refl).
  - rewrite E3 in T1, T2. cbn [nth] in T1, T2. rewrite E2 in L. destruct (lines_prefix _ _ _ _ _ _ _ _ _ low_ok L1 L) as [X|X]; [congruence|exact (T2 X)].
Qed.
Lemma rest_tab k ld bs col line b s bs' col' t v r : Z.of_N col = indent -> line <> [] -> Forall (fun x => is_breakz x = false) line ->
  line_break b -> lines (low_space indent) b s bs' col' -> low indent col' -> rest k ld bs col (line ++ b ++ s ++ 9 :: t) v r -> False.
Proof.
  intros Hc N0 F B L Lo P. pose proof (break_z b (s ++ 9 :: t) B) as Z. remember (line ++ b ++ s ++ 9 :: t) as T0 eqn:E0. revert E0.
  destruct P as [k ld bs col T0 X|k ld bs col line1 b1 s1 bs1 col1 t1 v1 r1 Hc1 N1 F1 B1 L1 T3 P1|k ld bs col line1 t1 Hc1 N1 F1 Z1]; intros E0.
  - subst T0. destruct X as [X|X]; [contradiction|]. exact (line_nz _ _ N0 F X).
  - destruct (line_unique _ _ _ _ F1 F (break_z b1 _ B1) Z E0) as [-> E1]. eapply (lines_tab b s bs' col' t b1 s1 bs1 col1 t1); eassumption.
  - destruct (line_unique _ _ _ _ F1 F (z_breakz _ Z1) Z E0) as [_ E1]. destruct (break_not_blank b (s ++ 9 :: t) B) as [_ X]. rewrite <- E1, Z1 in X. discriminate.
Qed.
End Block.
Section Scalar.
Variables (literal : bool) (pindent : Z).
Lemma scalar_nothing h chomp inc w r v r0 : block_header h chomp inc (w ++ r) -> line_tail w r -> head r = 0 -> block_scalar literal pindent (h ++ w ++ r) v r0 -> v = [] /\ r0 = r.
Proof.
  intros Hh Lt Z P. remember (h ++ w ++ r) as T0 eqn:E0. revert E0. destruct P as [h1 c1 i1 w1 r1 Hh1 Lt1 Z1|h1 c1 i1 w1 b1 s1 bs1 col1 t1 v1 r1 Hh1 Lt1 B1 given L1 T1 P1]; intros E0.
  - destruct (header_unique _ _ _ _ _ _ _ _ Hh1 Hh E0) as (-> & -> & -> & E1). destruct (tail_unique _ _ _ _ Lt1 Lt E1) as [-> ->]. auto.
  - exfalso. destruct (header_unique _ _ _ _ _ _ _ _ Hh1 Hh E0) as (-> & -> & -> & E1). destruct (tail_unique _ _ _ _ Lt1 Lt E1) as [_ E2]. destruct (break_not_blank b1 (s1 ++ t1) B1) as [_ X]. rewrite E2, Z in X. discriminate.
Qed.
Lemma scalar_text h chomp inc w b s bs col t v r : block_header h chomp inc (w ++ b ++ s ++ t) -> line_tail w (b ++ s ++ t) -> line_break b ->
  lines (low_space (given_indent pindent inc)) b s bs col -> text_begins (given_indent pindent inc) col t ->
  block_scalar literal pindent (h ++ w ++ b ++ s ++ t) v r -> block_rest literal chomp (found_indent pindent (given_indent pindent inc) s) false [] bs col t v r.
Proof.
  intros Hh Lt B L T P. remember (h ++ w ++ b ++ s ++ t) as T0 eqn:E0. revert E0. destruct P as [h1 c1 i1 w1 r1 Hh1 Lt1 Z1|h1 c1 i1 w1 b1 s1 bs1 col1 t1 v1 r1 Hh1 Lt1 B1 given L1 T1 P1]; intros E0.
  - exfalso. destruct (header_unique _ _ _ _ _ _ _ _ Hh1 Hh E0) as (-> & -> & -> & E1). destruct (tail_unique _ _ _ _ Lt1 Lt E1) as [_ E2]. destruct (break_not_blank b (s ++ t) B) as [_ X]. rewrite <- E2, Z1 in X. discriminate.
  - destruct (header_unique _ _ _ _ _ _ _ _ Hh1 Hh E0) as (-> & -> & -> & E1). destruct (tail_unique _ _ _ _ Lt1 Lt E1) as [-> E2]. destruct (begins_low _ _ _ T1) as [T2 T3]. destruct (begins_low _ _ _ T) as [T4 T5].
    destruct (fold_unique _ _ _ _ _ _ _ _ _ _ _ (low_ok (given_indent pindent inc)) B1 B L1 L T2 T4 T3 T5 E2) as (-> & -> & -> & -> & ->). exact P1.
Qed.
Lemma scalar_zero t n v r : zero_indent t n -> block_scalar literal pindent t v r -> False.
Proof.
  intros (h & q & E0 & _ & Hh) P. assert (X : exists h' c i r', block_header h' c i r' /\ t = h' ++ r') by (destruct P; eauto 8). clear P. destruct X as (h' & c & i & r' & H & ->).
  destruct Hh as [->|(x & Sx & ->)]; destruct H; cbn [app] in E0; inversion E0; subst; cbn [nth] in *; unfold sign, count, digit in *; lia.
Qed.
Lemma scalar_header t n v r : bad_header t n -> block_scalar literal pindent t v r -> False.
Proof.
  intros (h & c & i & w & q & E0 & _ & Hh & Lt & Z) P.
  assert (X : exists h' c i w' r', block_header h' c i (w' ++ r') /\ line_tail w' r' /\ is_breakz (head r') = true /\ t = h' ++ w' ++ r').
  { destruct P as [h1 c1 i1 w1 r1 Hh1 Lt1 Z1|h1 c1 i1 w1 b1 s1 bs1 col1 t1 v1 r1 Hh1 Lt1 B1 given L1 T1 P1].
    - exists h1, c1, i1, w1, r1. repeat split; auto. apply z_breakz. exact Z1.
    - exists h1, c1, i1, w1, (b1 ++ s1 ++ t1). repeat split; auto. apply break_z. exact B1. }
  destruct X as (h1 & c1 & i1 & w1 & r1 & Hh1 & Lt1 & Z1 & E1). rewrite E0 in E1. destruct (header_unique _ _ _ _ _ _ _ _ Hh Hh1 E1) as (_ & _ & _ & E2). destruct (tail_unique _ _ _ _ Lt Lt1 E2) as [_ ->]. congruence.
Qed.
Lemma scalar_tab h chomp inc w b s bs col t v r : block_header h chomp inc (w ++ b ++ s ++ 9 :: t) -> line_tail w (b ++ s ++ 9 :: t) -> line_break b ->
  lines (low_space (given_indent pindent inc)) b s bs col -> low (given_indent pindent inc) col ->
  block_scalar literal pindent (h ++ w ++ b ++ s ++ 9 :: t) v r -> False.
Proof.
  intros Hh Lt B L Lo P. remember (h ++ w ++ b ++ s ++ 9 :: t) as T0 eqn:E0. revert E0. destruct P as [h1 c1 i1 w1 r1 Hh1 Lt1 Z1|h1 c1 i1 w1 b1 s1 bs1 col1 t1 v1 r1 Hh1 Lt1 B1 given L1 T1 P1]; intros E0.
  - destruct (header_unique _ _ _ _ _ _ _ _ Hh1 Hh E0) as (-> & -> & -> & E1). destruct (tail_unique _ _ _ _ Lt1 Lt E1) as [_ E2]. destruct (break_not_blank b (s ++ 9 :: t) B) as [_ X]. rewrite <- E2, Z1 in X. discriminate.
  - destruct (header_unique _ _ _ _ _ _ _ _ Hh1 Hh E0) as (-> & -> & -> & E1). destruct (tail_unique _ _ _ _ Lt1 Lt E1) as [-> E2].
    exact (lines_tab (given_indent pindent inc) b s bs col t b1 s1 bs1 col1 t1 B B1 L Lo L1 T1 E2).
Qed.
End Scalar.

(* ---- between tokens ---- *)
Lemma prop_span_unique (p : N -> Prop) w t w' t' : Forall p w -> Forall p w' -> ~ p (head t) -> ~ p (head t') -> w ++ t = w' ++ t' -> w = w' /\ t = t'.
Proof.
  intros F. revert w'. induction F as [|x w X F IH]; intros w' F' N1 N1' E0.
  - destruct w' as [|y w']; [auto|]. cbn [app] in E0. subst t. exfalso. apply Forall_inv in F'. exact (N1 F').
  - destruct w' as [|y w'].
    + cbn [app] in E0. subst t'. exfalso. exact (N1' X).
    + cbn [app] in E0. injection E0 as -> E0. apply Forall_inv_tail in F'. destruct (IH w' F' N1 N1' E0) as [-> ->]. auto.
Qed.
Lemma line_gap_unique flow key first t r r' : line_gap flow key first t r -> line_gap flow key first t r' -> r = r'.
Proof.
  intros (bo & bl & cm & E0 & Hb & F & N1 & C) (bo' & bl' & cm' & E0' & Hb' & F' & N1' & C'). assert (bo = bo') by (destruct (first && (head t =? 0xFEFF)); congruence). subst bo'.
  rewrite E0 in E0'. apply app_inv_head in E0'. destruct (prop_span_unique _ _ _ _ _ F F' N1 N1' E0') as [_ E1].
  destruct C as [[-> C]|(s & -> & Fs & Z)], C' as [[-> C']|(s' & -> & Fs' & Z')]; cbn [app] in E1.
  - exact E1.
  - subst r. destruct (C eq_refl).
  - subst r'. destruct (C' eq_refl).
  - injection E1 as E1. exact (proj2 (line_unique _ _ _ _ Fs Fs' Z Z' E1)).
Qed.
Lemma gap_unique flow key first t r k : gap flow key first t r k -> forall r' k', gap flow key first t r' k' -> r = r' /\ k = k'.
Proof.
  induction 1 as [key first t r G B|key first t b r r1 k1 G Lb Nb P IH]; intros r' k' P'.
  - destruct P' as [key first t r' G' B'|key first t b' r' r1' k1' G' Lb' Nb' P']; [split; [eapply line_gap_unique; eauto|reflexivity]|].
    exfalso. pose proof (line_gap_unique _ _ _ _ _ _ G G') as ->. rewrite (proj2 (break_not_blank b' r' Lb')) in B. discriminate.
  - destruct P' as [key first t r' G' B'|key first t b' r' r1' k1' G' Lb' Nb' P'].
    + exfalso. pose proof (line_gap_unique _ _ _ _ _ _ G G') as <-. rewrite (proj2 (break_not_blank b r Lb)) in B'. discriminate.
    + pose proof (line_gap_unique _ _ _ _ _ _ G G') as E0. destruct (break_unique _ _ _ _ Lb Lb' E0 Nb Nb') as [_ ->]. apply IH. exact P'.
Qed.
Theorem gap_exactly flow key c :
  match scan_to_next_token flow key c with
  | COk key' c' => forall r k, gap flow key (m_column (c_mark c) =? 0) (c_text c) r k <-> r = c_text c' /\ k = key'
  | CErr e => se_problem e = SReader
  | CBad | CFuel => False
  end.
Proof.
  pose proof (gap_exact flow key c) as X. unfold wp in X. destruct (scan_to_next_token flow key c); auto. intros r k. split; [intros G|intros [-> ->]; exact X].
  exact (gap_unique _ _ _ _ _ _ G _ _ X).
Qed.
