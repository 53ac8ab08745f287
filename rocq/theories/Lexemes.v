(* Which token begins at a place, and that it is the only one. *)
From Verif Require Import Base ReaderModel Utf8Spec CharSpec Types CursorModel ScanModel ScannerModel CursorProofs ScanProofs ScanQuoted ScannerSpec RoundSpec LexSpec QuotedExact PlainExact BlockExact TagLex LexemeSpec.

Definition kind (flow first : bool) (t : list N) : branch :=
  let x := nth 0 t 0 in
  let z := is_blankz (nth 1 t 0) in
  if is_z x then BStreamEnd else
  if first && (x =? 0x25) then BDirective else
  if first && is_indicator 0x2D t then BDocStart else
  if first && is_indicator 0x2E t then BDocEnd else
  if x =? 0x5B then BFlowSeqStart else
  if x =? 0x7B then BFlowMapStart else
  if x =? 0x5D then BFlowSeqEnd else
  if x =? 0x7D then BFlowMapEnd else
  if x =? 0x2C then BFlowEntry else
  if (x =? 0x2D) && z then BBlockEntry else
  if (x =? 0x3F) && (flow || z) then BKey else
  if (x =? 0x3A) && (flow || z) then BValue else
  if x =? 0x2A then BAlias else
  if x =? 0x26 then BAnchor else
  if x =? 0x21 then BTag else
  if (x =? 0x7C) && negb flow then BLiteral else
  if (x =? 0x3E) && negb flow then BFolded else
  if x =? 0x27 then BSingle else
  if x =? 0x22 then BDouble else
  if plain_first x || (x =? 0x2D) || negb flow && ((x =? 0x3F) || (x =? 0x3A)) then BPlain else BError.

Lemma kind_choose t0 m0 st flow t m c (Q : branch -> cur -> Prop) :
  pos t0 m0 4 t m c -> Q (kind flow (m_column m =? 0) t) c -> wp (choose flow) c Q (epos t0 m0 st).
Proof.
  intros H HQ. unfold choose. sx. unfold kind in HQ. cbv zeta in HQ.
  destruct (is_z (nth 0 t 0)) eqn:Z0; [sx; exact HQ|].
  destruct ((m_column m =? 0) && (nth 0 t 0 =? 0x25)) eqn:Dr; [sx; exact HQ|].
  assert (Z : nth 0 t 0 <> 0) by cls. destruct (nth0_cons t Z) as [x [r T]].
  assert (X : nth 0 t 0 = x) by (subst t; reflexivity).
  s1. s1. s1.
  assert (Ind : forall k (Q : bool -> cur -> Prop), 0 < k -> is_ascii k = true -> Q ((m_column m =? 0) && is_indicator k t) c ->
     if m_column m =? 0 then wp (andc (triple k) (check 3 is_blankz)) c Q (epos t0 m0 st) else Q false c).
  { intros k Q' K A HQ'. destruct (m_column m =? 0); [|exact HQ']. eapply p_indicator; [exact H|lia|exact K|exact A|exact HQ']. }
  apply Ind; [lia|reflexivity|]. destruct ((m_column m =? 0) && is_indicator 0x2D t) eqn:D1; [s1; exact HQ|].
  s1. s1. s1. apply Ind; [lia|reflexivity|]. destruct ((m_column m =? 0) && is_indicator 0x2E t) eqn:D2; [s1; exact HQ|].
  clear D1 D2 Dr Ind. assert (X1 : nth 1 t 0 = nth 0 r 0) by (subst t; reflexivity). rewrite X, X1 in *.
  do 5 (match goal with |- wp (if ?b then _ else _) _ _ _ => destruct b eqn:?; [s1; exact HQ|] end).
  assert (Look : forall k (f : bool) (Q : bool -> cur -> Prop), is_ascii k = true ->
     Q ((x =? k) && (f || is_blankz (nth 0 r 0))) c -> wp (andc (ret (x =? k)) (orc (ret f) (check 1 is_blankz))) c Q (epos t0 m0 st)).
  { intros k f Q' A HQ'. s1. s1. destruct (N.eqb_spec x k) as [->|]; [|exact HQ']. s1. s1.
    destruct f; [exact HQ'|]. subst t. eapply p_check1; [exact H|lia|exact A|]. exact HQ'. }
  s1.
  eapply (wp_mono _ _ (fun b c' => c' = c /\ b = ((x =? 0x2D) && is_blankz (nth 0 r 0)))).
  { apply wp_andc, wp_ret. destruct (N.eqb_spec x 0x2D) as [Ex|]; [|split; reflexivity]. subst t. eapply p_check1; [exact H|lia|subst x; reflexivity|]. split; reflexivity. }
  2:{ intros ? W. exact W. }
  intros b c1 [-> Eb]. rewrite <- Eb in HQ. destruct b; [s1; exact HQ|].
  s1. apply (Look 0x3F); [reflexivity|]. destruct ((x =? 0x3F) && (flow || is_blankz (nth 0 r 0))) eqn:Eq; [s1; exact HQ|].
  s1. apply (Look 0x3A); [reflexivity|]. destruct ((x =? 0x3A) && (flow || is_blankz (nth 0 r 0))) eqn:Ev; [s1; exact HQ|].
  do 7 (match goal with |- wp (if ?b then _ else _) _ _ _ => destruct b eqn:?; [s1; exact HQ|] end).
  s1. eapply (wp_mono _ _ (fun b c' => c' = c /\ b = (plain_first x || (x =? 0x2D) || negb flow && ((x =? 0x3F) || (x =? 0x3A))))).
  2:{ intros b c1 [-> ->]. destruct (plain_first x || (x =? 0x2D) || negb flow && ((x =? 0x3F) || (x =? 0x3A))); s1; exact HQ. }
  2:{ intros ? W. exact W. }
  unfold plain_start. s1. s1. rewrite X. destruct (plain_first x) eqn:Pf; [split; reflexivity|]. cbn [orb].
  s1. s1. s1. rewrite X. unfold eqc at 1. destruct (N.eqb_spec x 0x2D) as [Ex|].
  { subst t. eapply p_check1; [exact H|lia|subst x; reflexivity|]. cbn [andb] in Eb.
    replace (is_blank (nth 0 r 0)) with false by (symmetry; cls). split; reflexivity. }
  s1. s1. destruct flow; cbn [negb]; [split; reflexivity|]. s1. s1. rewrite X.
  destruct ((x =? 0x3F) || (x =? 0x3A)) eqn:Qc; [|split; reflexivity].
  assert (Ax : is_ascii x = true) by (unfold is_ascii; lia).
  subst t. eapply p_check1; [exact H|lia|exact Ax|]. cbn [orb andb] in *.
  split; [reflexivity|]. clear -Eq Ev Qc. destruct (is_blankz (nth 0 r 0)); [lia|reflexivity].
Qed.

(* the rules of the token of a branch *)
Definition lex_of (b : branch) (flow : bool) (indent : Z) (t : list N) (k : tok) (lb : bool) (r : list N) : Prop :=
  match b with
  | BStreamEnd | BError => False
  | BDirective => lb = false /\ exists t1, t = 0x25 :: t1 /\ exists r1, directive_text t1 k r1 /\ line_end r1 r
  | BDocStart => lb = false /\ t = 0x2D :: 0x2D :: 0x2D :: r /\ k = TDocStart
  | BDocEnd => lb = false /\ t = 0x2E :: 0x2E :: 0x2E :: r /\ k = TDocEnd
  | BFlowSeqStart => lb = false /\ t = 0x5B :: r /\ k = TFlowSeqStart
  | BFlowMapStart => lb = false /\ t = 0x7B :: r /\ k = TFlowMapStart
  | BFlowSeqEnd => lb = false /\ t = 0x5D :: r /\ k = TFlowSeqEnd
  | BFlowMapEnd => lb = false /\ t = 0x7D :: r /\ k = TFlowMapEnd
  | BFlowEntry => lb = false /\ t = 0x2C :: r /\ k = TFlowEntry
  | BBlockEntry => lb = false /\ t = 0x2D :: r /\ k = TBlockEntry
  | BKey => lb = false /\ t = 0x3F :: r /\ k = TKey
  | BValue => lb = false /\ t = 0x3A :: r /\ k = TValue
  | BAlias => lb = false /\ exists t1, t = 0x2A :: t1 /\ exists s, k = TAlias s /\ anchor_text t1 s r
  | BAnchor => lb = false /\ exists t1, t = 0x26 :: t1 /\ exists s, k = TAnchor s /\ anchor_text t1 s r
  | BTag => lb = false /\ exists t1, t = 0x21 :: t1 /\ exists h s, k = TTag h s /\ tag_text flow t1 h s r
  | BLiteral => lb = false /\ exists t1, t = 0x7C :: t1 /\ exists v, k = TScalar (utf8 v) Literal /\ block_scalar true indent t1 v r
  | BFolded => lb = false /\ exists t1, t = 0x3E :: t1 /\ exists v, k = TScalar (utf8 v) Folded /\ block_scalar false indent t1 v r
  | BSingle => lb = false /\ exists t1, t = 0x27 :: t1 /\ exists s, k = TScalar s SingleQuoted /\ quoted_text true t1 s r
  | BDouble => lb = false /\ exists t1, t = 0x22 :: t1 /\ exists s, k = TScalar s DoubleQuoted /\ quoted_text false t1 s r
  | BPlain => exists v, k = TScalar (utf8 v) Plain /\ plain flow (indent + 1) t v r lb
  end.

Lemma indicator_marker x t : is_indicator x t = true <-> exists r, t = x :: x :: x :: r /\ is_blankz (nth 0 r 0) = true.
Proof.
  unfold is_indicator, is_triple. split.
  - destruct t as [|a [|b [|d r]]]; try discriminate. rewrite !andb_true_iff, !N.eqb_eq. intros [[[-> ->] ->] Z]. exists r. auto.
  - intros (r & -> & Z). cbn [nth]. rewrite !N.eqb_refl, Z. reflexivity.
Qed.
Lemma indicator_head k x r : x <> k -> is_indicator k (x :: r) = false.
Proof. intros H. destruct (is_indicator k (x :: r)) eqn:E; [|reflexivity]. apply indicator_marker in E as (q & [= E _] & _). contradiction. Qed.
Lemma kind_first flow first x r : x <> 0x2D -> x <> 0x2E -> x <> 0x25 -> kind flow first (x :: r) = kind flow false (x :: r).
Proof.
  intros H1 H2 H3. unfold kind. cbn [nth]. rewrite (indicator_head 0x2D) by exact H1. rewrite (indicator_head 0x2E) by exact H2.
  destruct (N.eqb_spec x 0x25); [contradiction|]. rewrite !andb_false_r. reflexivity.
Qed.
Lemma first_plain x : plain_first x = true <-> is_blankz x = false /\ ~ In x indicators.
Proof.
  unfold plain_first. rewrite negb_true_iff, orb_false_iff. split; intros [H1 H2]; (split; [exact H1|]).
  - intros I. apply not_true_iff_false in H2. apply H2. apply existsb_exists. exists x. split; [exact I|apply N.eqb_refl].
  - apply not_true_iff_false. intros E. apply existsb_exists in E as (y & I & E). apply N.eqb_eq in E. subst y. exact (H2 I).
Qed.
Lemma kind_facts flow first t :
  match kind flow first t with
  | BStreamEnd => nth 0 t 0 = 0
  | BDirective => first = true
  | BDocStart | BDocEnd => first = true /\ exists x r, t = x :: x :: x :: r /\ is_blankz (nth 0 r 0) = true
  | BBlockEntry => is_blankz (nth 1 t 0) = true
  | BKey | BValue => flow = true \/ is_blankz (nth 1 t 0) = true
  | BLiteral | BFolded => flow = false
  | BPlain => plain_opens flow t /\ (first = true -> ~ document_marker t) /\ nth 0 t 0 <> 0
  | _ => nth 0 t 0 <> 0
  end.
Proof.
  unfold kind. cbv zeta. destruct (is_z (nth 0 t 0)) eqn:Z; [unfold is_z in Z; lia|].
  assert (Nz : nth 0 t 0 <> 0) by (unfold is_z in Z; lia). clear Z.
  destruct (first && (nth 0 t 0 =? 0x25)) eqn:E1; [apply andb_true_iff in E1; tauto|].
  destruct (first && is_indicator 0x2D t) eqn:E2.
  { apply andb_true_iff in E2 as [E2 E3]. apply indicator_marker in E3 as (r & E3 & E4). split; [exact E2|]. exists 0x2D, r. auto. }
  destruct (first && is_indicator 0x2E t) eqn:E3.
  { apply andb_true_iff in E3 as [E4 E3]. apply indicator_marker in E3 as (r & E3 & E5). split; [exact E4|]. exists 0x2E, r. auto. }
  assert (Nd : first = true -> ~ document_marker t).
  { intros -> (x & r & X & Er & Zr). cbn [andb] in *. destruct X as [-> | ->].
    - apply not_true_iff_false in E2. apply E2. apply indicator_marker. exists r. auto.
    - apply not_true_iff_false in E3. apply E3. apply indicator_marker. exists r. auto. }
  clear E1 E2 E3. remember (nth 0 t 0) as x eqn:Ex. remember (is_blankz (nth 1 t 0)) as z eqn:Ez.
  do 5 (match goal with |- context[if x =? ?k then _ else _] => destruct (x =? k); [exact Nz|] end).
  destruct (x =? 0x2D) eqn:Ed; cbn [andb].
  { destruct z; [reflexivity|]. apply N.eqb_eq in Ed. subst x. rewrite Ed. cbn [N.eqb Pos.eqb andb orb]. rewrite orb_true_r. cbn [orb]. split; [|split; [exact Nd|discriminate]].
    split; rewrite Ed; [reflexivity|]. right. rewrite <- Ez. auto. }
  destruct (x =? 0x3F) eqn:Eq; cbn [andb].
  { apply N.eqb_eq in Eq. destruct flow; cbn [orb]; [left; reflexivity|]. destruct z; [right; reflexivity|]. subst x. rewrite Eq. cbn [N.eqb Pos.eqb andb orb negb]. rewrite orb_true_r. split; [|split; [exact Nd|discriminate]].
    split; rewrite Eq; [reflexivity|]. right. rewrite <- Ez. auto. }
  destruct (x =? 0x3A) eqn:Ev; cbn [andb].
  { apply N.eqb_eq in Ev. destruct flow; cbn [orb]; [left; reflexivity|]. destruct z; [right; reflexivity|]. subst x. rewrite Ev. cbn [N.eqb Pos.eqb andb orb negb]. rewrite orb_true_r. split; [|split; [exact Nd|discriminate]].
    split; rewrite Ev; [reflexivity|]. right. rewrite <- Ez. auto. }
  do 3 (match goal with |- context[if x =? ?k then _ else _] => destruct (x =? k); [exact Nz|] end).
  destruct ((x =? 0x7C) && negb flow) eqn:El; [apply andb_true_iff in El as [_ El]; destruct flow; [discriminate|reflexivity]|].
  destruct ((x =? 0x3E) && negb flow) eqn:Ef; [apply andb_true_iff in Ef as [_ Ef]; destruct flow; [discriminate|reflexivity]|].
  do 2 (match goal with |- context[if x =? ?k then _ else _] => destruct (x =? k); [exact Nz|] end).
  rewrite andb_false_r, !orb_false_r. destruct (plain_first x) eqn:Pf; [|exact Nz]. apply first_plain in Pf. split; [|auto]. split; rewrite <- Ex; [apply Pf|left; apply Pf].
Qed.
Lemma kind_plain flow first t : plain_opens flow t -> (first = true -> ~ document_marker t) -> kind flow first t = BPlain.
Proof.
  intros [Z P] D. assert (Ni : forall k, k = 0x2D \/ k = 0x2E -> first && is_indicator k t = false).
  { intros k K. destruct first; [|reflexivity]. cbn [andb]. apply not_true_iff_false. intros E. apply indicator_marker in E as (r & -> & Zr). apply (D eq_refl). exists k, r. auto. }
  unfold kind. cbv zeta. rewrite (Ni 0x2D), (Ni 0x2E) by auto. clear Ni D.
  assert (Nz : is_z (nth 0 t 0) = false) by cls. rewrite Nz. remember (nth 0 t 0) as x eqn:Ex.
  destruct P as [P|[P1 P2]].
  - assert (Pf : plain_first x = true) by (apply first_plain; auto). rewrite Pf. cbn [orb].
    assert (K : forall k, In k indicators -> (x =? k) = false).
    { intros k I. apply N.eqb_neq. intros ->. contradiction. }
    rewrite !K by (unfold indicators; cbn [In]; tauto). rewrite andb_false_r. reflexivity.
  - rewrite P1. destruct P2 as [-> |[-> [-> | ->]]]; cbn [N.eqb Pos.eqb andb orb negb]; rewrite ?andb_false_r, ?orb_true_r; reflexivity.
Qed.
Lemma lexeme_kind flow first indent t k lb r : lexeme flow first indent t k lb r <-> lex_of (kind flow first t) flow indent t k lb r.
Proof.
  split.
  - intros L. destruct L as [t k r1 r F D E|r F Z|r F Z|x k r I|r Z|r Z|r Z|t s r A|t s r A|t h s r A|t v r F A|t v r F A|t s r A|t s r A|t v r lb P D A].
    + subst first. change (kind flow true (0x25 :: t)) with BDirective. split; [reflexivity|]. eauto.
    + subst first. unfold kind. cbn [nth]. replace (is_indicator 0x2D (0x2D :: 0x2D :: 0x2D :: r)) with true by (symmetry; apply indicator_marker; eauto). exact (conj eq_refl (conj eq_refl eq_refl)).
    + subst first. unfold kind. cbn [nth]. rewrite (indicator_head 0x2D) by discriminate.
      replace (is_indicator 0x2E (0x2E :: 0x2E :: 0x2E :: r)) with true by (symmetry; apply indicator_marker; eauto). exact (conj eq_refl (conj eq_refl eq_refl)).
    + unfold brackets in I. cbn [In] in I. repeat (destruct I as [[= <- <-]|I]; [rewrite kind_first by discriminate; exact (conj eq_refl (conj eq_refl eq_refl))|]). contradiction.
    + unfold kind. cbn [nth]. rewrite (indicator_head 0x2E) by discriminate. replace (is_indicator 0x2D (0x2D :: r)) with false.
      * rewrite !andb_false_r, Z. exact (conj eq_refl (conj eq_refl eq_refl)).
      * symmetry. apply not_true_iff_false. intros E. apply indicator_marker in E as (q & [= ->] & _). discriminate Z.
    + rewrite kind_first by discriminate. unfold kind. cbn [nth]. replace (flow || is_blankz (nth 0 r 0)) with true; [exact (conj eq_refl (conj eq_refl eq_refl))|]. symmetry. apply orb_true_iff. tauto.
    + rewrite kind_first by discriminate. unfold kind. cbn [nth]. replace (flow || is_blankz (nth 0 r 0)) with true; [exact (conj eq_refl (conj eq_refl eq_refl))|]. symmetry. apply orb_true_iff. tauto.
    + rewrite kind_first by discriminate. split; [reflexivity|]. eauto.
    + rewrite kind_first by discriminate. split; [reflexivity|]. eauto.
    + rewrite kind_first by discriminate. split; [reflexivity|]. eauto 6.
    + subst flow. rewrite kind_first by discriminate. split; [reflexivity|]. eauto.
    + subst flow. rewrite kind_first by discriminate. split; [reflexivity|]. eauto.
    + rewrite kind_first by discriminate. split; [reflexivity|]. eauto.
    + rewrite kind_first by discriminate. split; [reflexivity|]. eauto.
    + rewrite kind_plain by assumption. hnf. eauto.
  - pose proof (kind_facts flow first t) as K. destruct (kind flow first t); cbn [lex_of]; try contradiction.
    + intros (-> & t1 & -> & r1 & D & E). econstructor; eauto.
    + intros (-> & -> & ->). destruct K as (F & x & q & E & Z). injection E as E1 E2. rewrite <- ?E2 in *. subst. apply lex_start; auto.
    + intros (-> & -> & ->). destruct K as (F & x & q & E & Z). injection E as E1 E2. rewrite <- ?E2 in *. subst. apply lex_end; auto.
    + intros (-> & -> & ->). apply lex_bracket. unfold brackets. cbn. tauto.
    + intros (-> & -> & ->). apply lex_bracket. unfold brackets. cbn. tauto.
    + intros (-> & -> & ->). apply lex_bracket. unfold brackets. cbn. tauto.
    + intros (-> & -> & ->). apply lex_bracket. unfold brackets. cbn. tauto.
    + intros (-> & -> & ->). apply lex_bracket. unfold brackets. cbn. tauto.
    + intros (-> & -> & ->). apply lex_entry. exact K.
    + intros (-> & -> & ->). apply lex_key. exact K.
    + intros (-> & -> & ->). apply lex_value. exact K.
    + intros (-> & t1 & -> & s & -> & A). apply lex_alias. exact A.
    + intros (-> & t1 & -> & s & -> & A). apply lex_anchor. exact A.
    + intros (-> & t1 & -> & h & s & -> & A). apply lex_tag. exact A.
    + intros (-> & t1 & -> & v & -> & A). apply lex_literal; assumption.
    + intros (-> & t1 & -> & v & -> & A). apply lex_folded; assumption.
    + intros (-> & t1 & -> & s & -> & A). apply lex_single. exact A.
    + intros (-> & t1 & -> & s & -> & A). apply lex_double. exact A.
    + intros (v & -> & A). destruct K as (K1 & K2 & _). apply lex_plain; assumption.
Qed.
Definition head_of (b : branch) : option N :=
  match b with
  | BDirective => Some 0x25 | BDocStart => Some 0x2D | BDocEnd => Some 0x2E
  | BFlowSeqStart => Some 0x5B | BFlowMapStart => Some 0x7B | BFlowSeqEnd => Some 0x5D | BFlowMapEnd => Some 0x7D | BFlowEntry => Some 0x2C
  | BBlockEntry => Some 0x2D | BKey => Some 0x3F | BValue => Some 0x3A | BAlias => Some 0x2A | BAnchor => Some 0x26 | BTag => Some 0x21
  | BLiteral => Some 0x7C | BFolded => Some 0x3E | BSingle => Some 0x27 | BDouble => Some 0x22
  | _ => None
  end.
Lemma kind_head flow first t x : head_of (kind flow first t) = Some x -> exists r, t = x :: r.
Proof.
  destruct t as [|y t]; [discriminate|]. intros H. exists t. f_equal. revert H. unfold kind. cbv zeta. cbn [nth].
  destruct (is_z y); [discriminate|].
  destruct (first && (y =? 0x25)) eqn:E1; [intros [= <-]; lia|].
  destruct (first && is_indicator 0x2D (y :: t)) eqn:E2.
  { intros [= <-]. apply andb_true_iff in E2 as [_ E2]. apply indicator_marker in E2 as (r & [= E2 _] & _). exact E2. }
  destruct (first && is_indicator 0x2E (y :: t)) eqn:E3.
  { intros [= <-]. apply andb_true_iff in E3 as [_ E3]. apply indicator_marker in E3 as (r & [= E3 _] & _). exact E3. }
  clear E2 E3. repeat match goal with |- head_of (if ?b then _ else _) = _ -> _ => destruct b eqn:?; [first [intros [= <-]; lia|discriminate]|] end.
  discriminate.
Qed.
