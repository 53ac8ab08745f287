(* The marks of documents and nodes (C77). *)
From Verif Require Import Base ReaderModel Types ParserModel DocModel LoaderModel LoaderSpec MarkLoaderModel NodeMarksSpec.
Local Open Scope nat_scope.

(* closing events without their opening event *)
Fixpoint unmatched (es : list event) : nat :=
  match es with
  | [] => 0
  | e :: r => if is_open (e_ev e) then pred (unmatched r) else if is_close (e_ev e) then S (unmatched r) else unmatched r
  end.
(* the numbers, from [k] on, of the nodes that are not closed; the last one first *)
Fixpoint open_nodes (k : nat) (es : list event) : list nat :=
  match es with
  | [] => []
  | e :: r =>
      if is_scalar (e_ev e) then open_nodes (S k) r
      else if is_open (e_ev e) then open_nodes (S k) r ++ (match unmatched r with O => [k] | _ => [] end)
      else open_nodes k r
  end.
Lemma open_nodes_ge es : forall k i, In i (open_nodes k es) -> k <= i.
Proof.
  induction es as [|e r IH]; intros k i H; [destruct H|]. cbn [open_nodes] in H. destruct (is_scalar _); [apply IH in H; lia|]. destruct (is_open _); [|apply IH in H; lia].
  apply in_app_iff in H as [H|H]; [apply IH in H; lia|]. destruct (unmatched r); [|destruct H]. destruct H as [<-|[]]. lia.
Qed.
Lemma scalar_open e : is_scalar e = true -> is_open e = false /\ is_close e = false.
Proof. destruct e; try discriminate; auto. Qed.
Lemma open_close e : is_open e = true -> is_close e = false.
Proof. destruct e; try discriminate; auto. Qed.

Lemma closing_none es : forall d, unmatched es <= d -> closing d es = None.
Proof.
  induction es as [|e r IH]; intros d H; [reflexivity|]. cbn [closing unmatched] in *. destruct (is_open (e_ev e)); [apply IH; lia|].
  destruct (is_close (e_ev e)); [|apply IH; lia]. destruct d; [lia|]. apply IH. lia.
Qed.
Lemma closing_some es : forall d, d < unmatched es -> exists c, closing d es = Some c.
Proof.
  induction es as [|e r IH]; intros d H; cbn [closing unmatched] in *; [lia|]. destruct (is_open (e_ev e)); [apply IH; lia|].
  destruct (is_close (e_ev e)); [|apply IH; lia]. destruct d; [eauto|]. apply IH. lia.
Qed.
Lemma closing_app es r : forall d c, closing d es = Some c -> closing d (es ++ r) = Some c.
Proof.
  induction es as [|e es IH]; intros d c H; [discriminate|]. cbn [closing app] in *. destruct (is_open (e_ev e)); [auto|].
  destruct (is_close (e_ev e)); [|auto]. destruct d; auto.
Qed.
(* a closing event at the end *)
Lemma closing_snoc es c k : is_close (e_ev c) = true -> forall d, unmatched es <= d ->
  closing d (es ++ [c]) = if (d - unmatched es + length (open_nodes k es) =? 0) then Some c else None.
Proof.
  intros Hc. assert (No : is_open (e_ev c) = false) by (destruct (e_ev c); try discriminate; reflexivity).
  revert k. induction es as [|e r IH]; intros k d H; cbn [app closing unmatched open_nodes].
  - rewrite No, Hc. destruct d; reflexivity.
  - cbn [unmatched] in H. destruct (is_scalar (e_ev e)) eqn:Sc.
    + destruct (scalar_open _ Sc) as [-> ->]. destruct (scalar_open _ Sc) as [So Sl]. rewrite So, Sl in H. apply IH. exact H.
    + destruct (is_open (e_ev e)).
      * rewrite (IH (S k)) by lia. rewrite app_length. destruct (unmatched r) as [|u]; cbn [length pred].
        -- replace (S d - 0 + length (open_nodes (S k) r) =? 0) with false by (symmetry; apply Nat.eqb_neq; lia).
           replace (d - 0 + (length (open_nodes (S k) r) + 1) =? 0) with false by (symmetry; apply Nat.eqb_neq; lia). reflexivity.
        -- replace (S d - S u + length (open_nodes (S k) r)) with (d - u + (length (open_nodes (S k) r) + 0)) by lia. reflexivity.
      * destruct (is_close (e_ev e)); [|apply IH; exact H]. destruct d; [lia|]. rewrite (IH k) by lia. reflexivity.
Qed.
Lemma closing_other es c : is_close (e_ev c) = false -> forall d, closing d es = None -> closing d (es ++ [c]) = None.
Proof.
  intros Hc. induction es as [|e r IH]; intros d H; cbn [app closing] in *.
  - rewrite Hc. destruct (is_open _); reflexivity.
  - destruct (is_open (e_ev e)); [auto|]. destruct (is_close (e_ev e)); [|auto]. destruct d; [discriminate|auto].
Qed.
Lemma unmatched_snoc es c k : is_close (e_ev c) = true -> unmatched (es ++ [c]) = match open_nodes k es with [] => S (unmatched es) | _ => unmatched es end.
Proof.
  intros Hc. assert (No : is_open (e_ev c) = false) by (destruct (e_ev c); try discriminate; reflexivity).
  revert k. induction es as [|e r IH]; intros k; cbn [app unmatched open_nodes]; [rewrite No, Hc; reflexivity|].
  destruct (is_scalar (e_ev e)) eqn:Sc; [destruct (scalar_open _ Sc) as [-> ->]; apply IH|].
  destruct (is_open (e_ev e)).
  - rewrite (IH (S k)). destruct (open_nodes (S k) r); cbn [app]; [|destruct (unmatched r); reflexivity]. destruct (unmatched r); reflexivity.
  - destruct (is_close (e_ev e)); [|apply IH]. rewrite (IH k). destruct (open_nodes k r); reflexivity.
Qed.
Lemma unmatched_other es c : is_close (e_ev c) = false -> unmatched (es ++ [c]) = unmatched es.
Proof.
  intros Hc. induction es as [|e r IH]; cbn [app unmatched]; [rewrite Hc; destruct (is_open _); reflexivity|]. rewrite IH. reflexivity.
Qed.

(* appending an event: what is open, and the marks *)
Lemma open_snoc_close es c : is_close (e_ev c) = true -> forall k, open_nodes k (es ++ [c]) = tl (open_nodes k es).
Proof.
  intros Hc. assert (No : is_open (e_ev c) = false /\ is_scalar (e_ev c) = false) by (destruct (e_ev c); try discriminate; auto). destruct No as [No Ns].
  induction es as [|e r IH]; intros k; cbn [app open_nodes]; [rewrite No, Ns; reflexivity|].
  destruct (is_scalar (e_ev e)); [apply IH|]. destruct (is_open (e_ev e)); [|apply IH]. rewrite IH, (unmatched_snoc r c (S k) Hc).
  destruct (open_nodes (S k) r) as [|i o]; cbn [tl app]; [destruct (unmatched r); reflexivity|]. reflexivity.
Qed.
Lemma open_snoc_scalar es c : is_scalar (e_ev c) = true -> forall k, open_nodes k (es ++ [c]) = open_nodes k es.
Proof.
  intros Hs. destruct (scalar_open _ Hs) as [No Nc]. induction es as [|e r IH]; intros k; cbn [app open_nodes]; [rewrite Hs; reflexivity|].
  rewrite IH, IH, (unmatched_other r c Nc). reflexivity.
Qed.
Lemma open_snoc_none es c : is_scalar (e_ev c) = false -> is_open (e_ev c) = false -> is_close (e_ev c) = false -> forall k, open_nodes k (es ++ [c]) = open_nodes k es.
Proof.
  intros Hs No Nc. induction es as [|e r IH]; intros k; cbn [app open_nodes]; [rewrite Hs, No; reflexivity|].
  rewrite IH, IH, (unmatched_other r c Nc). reflexivity.
Qed.
Lemma open_snoc_open es c : is_open (e_ev c) = true -> forall k, open_nodes k (es ++ [c]) = (k + length (node_marks es)) :: open_nodes k es.
Proof.
  intros Ho. pose proof (open_close _ Ho) as Nc. assert (Hs : is_scalar (e_ev c) = false) by (destruct (e_ev c); try discriminate; reflexivity).
  induction es as [|e r IH]; intros k; cbn [app open_nodes node_marks]; [rewrite Hs, Ho; cbn; f_equal; lia|].
  rewrite (unmatched_other r c Nc). rewrite !IH. destruct (is_scalar (e_ev e)); [cbn [length]; f_equal; lia|]. destruct (is_open (e_ev e)); [|reflexivity].
  cbn [length app]. f_equal. lia.
Qed.
Lemma marks_snoc_node es c : is_scalar (e_ev c) || is_open (e_ev c) = true -> node_marks (es ++ [c]) = node_marks es ++ [(e_start c, e_end c)].
Proof.
  intros H. assert (Nc : is_close (e_ev c) = false) by (destruct (e_ev c); try discriminate; reflexivity).
  induction es as [|e r IH]; cbn [app node_marks].
  - destruct (is_scalar (e_ev c)); [reflexivity|]. cbn [orb] in H. rewrite H. reflexivity.
  - rewrite IH. destruct (is_scalar (e_ev e)); [reflexivity|]. destruct (is_open (e_ev e)); [|reflexivity].
    destruct (closing 0 r) as [x|] eqn:C; [rewrite (closing_app _ _ _ _ C); reflexivity|]. rewrite (closing_other r c Nc 0 C). reflexivity.
Qed.
Lemma marks_snoc_none es c : is_scalar (e_ev c) = false -> is_open (e_ev c) = false -> is_close (e_ev c) = false -> node_marks (es ++ [c]) = node_marks es.
Proof.
  intros Hs No Nc. induction es as [|e r IH]; cbn [app node_marks]; [rewrite Hs, No; reflexivity|]. rewrite IH. destruct (is_scalar (e_ev e)); [reflexivity|]. destruct (is_open (e_ev e)); [|reflexivity].
  destruct (closing 0 r) as [x|] eqn:C; [rewrite (closing_app _ _ _ _ C); reflexivity|]. rewrite (closing_other r c Nc 0 C). reflexivity.
Qed.
Lemma marks_snoc_close es c : is_close (e_ev c) = true -> forall k,
  node_marks (es ++ [c]) = match open_nodes k es with i :: _ => set_end (i - k) (e_end c) (node_marks es) | [] => node_marks es end.
Proof.
  intros Hc. assert (No : is_open (e_ev c) = false /\ is_scalar (e_ev c) = false) by (destruct (e_ev c); try discriminate; auto). destruct No as [No Ns].
  induction es as [|e r IH]; intros k; cbn [app node_marks open_nodes]; [rewrite No, Ns; reflexivity|].
  assert (Sh : forall x, (match open_nodes (S k) r with i :: _ => set_end (i - k) (e_end c) (x :: node_marks r) | [] => x :: node_marks r end) = x :: node_marks (r ++ [c])).
  { intros x. rewrite (IH (S k)). destruct (open_nodes (S k) r) as [|i o] eqn:O; [reflexivity|].
    assert (S k <= i) by (apply (open_nodes_ge r); rewrite O; left; reflexivity). replace (i - k) with (S (i - S k)) by lia. destruct x. reflexivity. }
  destruct (is_scalar (e_ev e)); [symmetry; apply Sh|]. destruct (is_open (e_ev e)); [|apply IH].
  destruct (unmatched r) as [|u] eqn:U.
  - rewrite (closing_none r 0) by lia. rewrite (closing_snoc r c (S k) Hc 0) by lia. rewrite U.
    destruct (open_nodes (S k) r) as [|i o] eqn:O; cbn [app length Nat.sub Nat.add Nat.eqb].
    + rewrite Nat.sub_diag. cbn [set_end]. rewrite (IH (S k)), O. reflexivity.
    + specialize (Sh (e_start e, e_end e)). symmetry. exact Sh.
  - destruct (closing_some r 0 ltac:(lia)) as [x X]. rewrite X, (closing_app _ _ _ _ X), app_nil_r. symmetry. apply Sh.
Qed.

(* the composer *)
Record composed (es : list event) (s : lstate) (ms : list (mark * mark)) : Prop := mkComposed {
  co_ctx : l_ctx s = open_nodes 1 es;
  co_marks : ms = node_marks es;
  co_nodes : length (l_nodes s) = length ms }.
Lemma node_set_length ns i n : length (node_set ns i n) = length ns.
Proof. destruct i; [reflexivity|]. cbn. revert i. induction ns as [|x ns IH]; intros [|i]; cbn; auto. Qed.
Lemma set_end_length k m l : length (set_end k m l) = length l.
Proof. revert k. induction l as [|[a b] l IH]; intros [|k]; cbn; auto. Qed.
Lemma node_add_keeps s i s' : load_node_add s i = LNext s' -> l_ctx s' = l_ctx s /\ length (l_nodes s') = length (l_nodes s).
Proof.
  unfold load_node_add. destruct (l_ctx s) as [|p ctx] eqn:C; [intros H; injection H as <-; auto|].
  destruct (node_ref (l_nodes s) p) as [[tag [v st|items st|pairs st]]|]; intros H; try discriminate; injection H as <-; cbn [l_ctx l_nodes]; rewrite node_set_length; auto.
Qed.
Lemma load_new_keeps s n a m s' : load_new s n a m = LNext s' -> l_ctx s' = l_ctx s /\ length (l_nodes s') = S (length (l_nodes s)).
Proof.
  unfold load_new. destruct (register_anchor _ _ _ _) as [s1|e| |] eqn:R; try discriminate. cbn [lbind]. intros H. apply node_add_keeps in H as [H1 H2].
  rewrite H1, H2. unfold register_anchor in R. destruct a as [a|].
  - destruct (find_alias _ _) as [[j f]|]; [discriminate|]. injection R as <-. cbn. rewrite app_length. cbn. split; [reflexivity|lia].
  - injection R as <-. cbn. rewrite app_length. cbn. split; [reflexivity|lia].
Qed.
Lemma composed_step es s ms e s' : composed es s ms -> load_event s e = LNext s' -> composed (es ++ [e]) s' (mark_event s ms e).
Proof.
  intros [C M L] H. unfold load_event in H. unfold mark_event. destruct (e_ev e) eqn:E; try discriminate.
  - unfold load_alias in H. destruct (find_alias _ _) as [[i f]|]; [|discriminate]. apply node_add_keeps in H as [H1 H2].
    constructor; [rewrite open_snoc_none|rewrite marks_snoc_none|]; rewrite ?E; auto; congruence.
  - unfold load_scalar in H. apply load_new_keeps in H as [H1 H2].
    constructor; [rewrite open_snoc_scalar; [congruence|rewrite E; reflexivity]|rewrite marks_snoc_node; [congruence|rewrite E; reflexivity]|rewrite app_length; cbn; lia].
  - unfold load_sequence in H. destruct (load_new _ _ _ _) as [s1| | |] eqn:N; try discriminate. apply load_new_keeps in N as [N1 N2]. injection H as <-.
    constructor; [rewrite open_snoc_open by (rewrite E; reflexivity)|rewrite marks_snoc_node; [congruence|rewrite E; reflexivity]|rewrite app_length; cbn; lia].
    cbn. rewrite N1, C. f_equal. rewrite <- M. lia.
  - unfold load_end in H. destruct (l_ctx s) as [|i ctx] eqn:X; [discriminate|]. destruct (node_ref _ _) as [n|]; [|discriminate]. destruct (n_data n); try discriminate. injection H as <-.
    assert (Hc : is_close (e_ev e) = true) by (rewrite E; reflexivity).
    constructor; [rewrite open_snoc_close, <- C by exact Hc; reflexivity|rewrite (marks_snoc_close es e Hc 1), <- C, M; reflexivity|rewrite set_end_length; exact L].
  - unfold load_mapping in H. destruct (load_new _ _ _ _) as [s1| | |] eqn:N; try discriminate. apply load_new_keeps in N as [N1 N2]. injection H as <-.
    constructor; [rewrite open_snoc_open by (rewrite E; reflexivity)|rewrite marks_snoc_node; [congruence|rewrite E; reflexivity]|rewrite app_length; cbn; lia].
    cbn. rewrite N1, C. f_equal. rewrite <- M. lia.
  - unfold load_end in H. destruct (l_ctx s) as [|i ctx] eqn:X; [discriminate|]. destruct (node_ref _ _) as [n|]; [|discriminate]. destruct (n_data n); try discriminate. injection H as <-.
    assert (Hc : is_close (e_ev e) = true) by (rewrite E; reflexivity).
    constructor; [rewrite open_snoc_close, <- C by exact Hc; reflexivity|rewrite (marks_snoc_close es e Hc 1), <- C, M; reflexivity|rewrite set_end_length; exact L].
Qed.

Lemma nodes_unmarked fuel : forall p s ms k k', (forall p s ms i m, unmarked (k p s ms i m) = k' p s i) -> unmarked (mload_nodes fuel p s ms k) = load_nodes fuel p s k'.
Proof.
  induction fuel as [|f IH]; intros p s ms k k' K; [reflexivity|]. cbn [mload_nodes load_nodes]. destruct (parse p) as [e p'| | |]; try reflexivity.
  destruct (e_ev e); try apply K; destruct (load_event s e); try reflexivity; apply IH; exact K.
Qed.
Theorem mload_unmarked fuel l : unmarked (mload fuel l) = load fuel l.
Proof.
  assert (D : forall p e, unmarked (mload_document fuel p e) = load_document fuel p e).
  { intros p e. unfold mload_document, load_document. destruct (e_ev e); try reflexivity. apply nodes_unmarked. reflexivity. }
  assert (N : forall p, unmarked (mload_next fuel p) = load_next fuel p).
  { intros p. unfold mload_next, load_next. destruct (p_end p); [reflexivity|]. destruct (parse p) as [e p'| | |]; try reflexivity. destruct (e_ev e); try reflexivity; apply D. }
  unfold mload, load. cbv zeta. destruct (ld_started l); [apply N|]. destruct (parse (ld_parser l)) as [e p'| | |]; try reflexivity. destruct (e_ev e); try reflexivity. apply N.
Qed.

Lemma mload_nodes_marks fuel : forall p0 all p es s ms v tags i st d l', yields p0 (all ++ es) p -> composed es s ms ->
  mload_nodes fuel p s ms (fun p' s ms end_implicit m =>
     MDocument (mkMarked (mkDoc (l_nodes s) v tags i end_implicit) st m ms) (mkLoader p' true)) = MDocument d l' ->
  exists es' stop b, yields p0 (all ++ es' ++ [stop]) (ld_parser l') /\ e_ev stop = EDocEnd b /\
    md_start d = st /\ md_end d = e_end stop /\ md_nodes d = node_marks es' /\ length (d_nodes (md_doc d)) = length (md_nodes d).
Proof.
  induction fuel as [|f IH]; intros p0 all p es s ms v tags i st d l' Y C H; [discriminate|]. cbn [mload_nodes] in H.
  destruct (parse p) as [e p'| | |] eqn:P; try discriminate. pose proof (Y_call _ _ _ _ _ Y P) as Y'. rewrite <- app_assoc in Y'.
  assert (Z : (match load_event s e with
                 | LNext s' => mload_nodes f p' s' (mark_event s ms e) (fun p' s ms end_implicit m =>
     MDocument (mkMarked (mkDoc (l_nodes s) v tags i end_implicit) st m ms) (mkLoader p' true))
                 | LError err => MOther (LFailed (mkLoader (set_error p' err) true))
                 | LAssertion => MOther LAssertFail
                 | LUndefined => MOther LUB
                 end) = MDocument d l' -> exists es' stop b, yields p0 (all ++ es' ++ [stop]) (ld_parser l') /\ e_ev stop = EDocEnd b /\
    md_start d = st /\ md_end d = e_end stop /\ md_nodes d = node_marks es' /\ length (d_nodes (md_doc d)) = length (md_nodes d)).
  { destruct (load_event s e) as [s'| | |] eqn:L; try discriminate. apply (IH p0 all p' (es ++ [e])); [exact Y'|]. exact (composed_step _ _ _ _ _ C L). }
  destruct (e_ev e) eqn:E; try exact (Z H). injection H as <- <-. destruct C as [C1 C2 C3]. exists es, e, implicit. cbn. auto 8.
Qed.
Theorem mload_marks fuel l d l' : mload fuel l = MDocument d l' ->
  exists start v tags i es stop j, reading l (start :: es ++ [stop]) (ld_parser l') /\ e_ev start = EDocStart v tags i /\ e_ev stop = EDocEnd j /\
    md_start d = e_start start /\ md_end d = e_end stop /\ md_nodes d = node_marks es /\ length (d_nodes (md_doc d)) = length (md_nodes d).
Proof.
  intros H.
  assert (N : forall p, mload_next fuel p = MDocument d l' -> exists start v tags i es stop j, yields p (start :: es ++ [stop]) (ld_parser l') /\ e_ev start = EDocStart v tags i /\ e_ev stop = EDocEnd j /\
    md_start d = e_start start /\ md_end d = e_end stop /\ md_nodes d = node_marks es /\ length (d_nodes (md_doc d)) = length (md_nodes d)).
  { intros p K. unfold mload_next in K. destruct (p_end p); [discriminate|]. destruct (parse p) as [e p'| | |] eqn:P; try discriminate.
    assert (K' : mload_document fuel p' e = MDocument d l') by (destruct (e_ev e); try discriminate; exact K). clear K. unfold mload_document in K'.
    destruct (e_ev e) as [| |v tags i| | | | | | | ] eqn:E; try discriminate.
    assert (Y0 : yields p ([e] ++ []) p') by exact (Y_call p [] p e p' (Y_none p) P).
    destruct (mload_nodes_marks fuel p [e] p' [] _ _ _ _ _ _ _ _ Y0 (mkComposed [] (mkLstate [] [] []) [] eq_refl eq_refl eq_refl) K') as (es & stop & b & Y & R1 & R2 & R3 & R4 & R5).
    exists e, v, tags, i, es, stop, b. auto 8. }
  unfold mload in H. cbv zeta in H. unfold reading. destruct (ld_started l).
  - destruct (N _ H) as (start & v & tags & i & es & stop & j & Y & R). exists start, v, tags, i, es, stop, j. auto.
  - destruct (parse (ld_parser l)) as [e p'| | |] eqn:P; try discriminate. destruct (e_ev e) eqn:E; try discriminate.
    destruct (N _ H) as (start & v & tags & i & es & stop & j & Y & R). exists start, v, tags, i, es, stop, j. split; [|exact R]. right. split; [reflexivity|]. eauto 8.
Qed.

(* nodes in the order of the text *)
From Verif Require Import EventMarksSpec EventMarks.
Local Open Scope N_scope.
Lemma in_order_eord l : forall lo, events_in_order l -> (forall t r, l = t :: r -> lo <= m_index (e_start t)) -> eord lo l.
Proof.
  induction l as [|t l IH]; intros lo H F; cbn [eord]; [exact I|]. split; [exact (F t l eq_refl)|]. split; [exact (proj1 H t (or_introl eq_refl))|].
  apply IH.
  - destruct H as [A B]. split; [intros x Hx; apply A; right; exact Hx|]. intros a x b y c E. subst l. exact (B (t :: a) x b y c eq_refl).
  - intros t2 r ->. exact (proj2 H [] t [] t2 r eq_refl).
Qed.
Lemma closing_in es : forall d c, closing d es = Some c -> In c es.
Proof.
  induction es as [|e r IH]; intros d c H; [discriminate|]. cbn [closing] in H. destruct (is_open (e_ev e)); [right; exact (IH _ _ H)|].
  destruct (is_close (e_ev e)); [|right; exact (IH _ _ H)]. destruct d; [injection H as <-; left; reflexivity|right; exact (IH _ _ H)].
Qed.
Lemma closing_later lo es : eord lo es -> forall d d' c, (d <= d')%nat -> closing d' es = Some c -> exists c', closing d es = Some c' /\ m_index (e_end c') <= m_index (e_end c).
Proof.
  revert lo. induction es as [|e r IH]; intros lo O d d' c D H; [discriminate|]. cbn [closing] in *. destruct O as (O1 & O2 & O3).
  destruct (is_open (e_ev e)); [apply (IH _ O3 (S d) (S d') c); [lia|exact H]|]. destruct (is_close (e_ev e)); [|exact (IH _ O3 d d' c D H)].
  destruct d' as [|d']; [assert (d = O) by lia; subst; injection H as <-; exists e; split; [reflexivity|lia]|].
  destruct d as [|d]; [|apply (IH _ O3 d d' c); [lia|exact H]]. exists e. split; [reflexivity|]. apply closing_in in H. destruct (eord_ge _ _ _ O3 H). lia.
Qed.
Lemma node_marks_in es : forall lo a b, eord lo es -> In (a, b) (node_marks es) -> lo <= m_index a /\ m_index a <= m_index b.
Proof.
  induction es as [|e r IH]; intros lo a b O H; [destruct H|]. cbn [node_marks] in H. destruct O as (O1 & O2 & O3).
  assert (Z : In (a, b) (node_marks r) -> lo <= m_index a /\ m_index a <= m_index b) by (intros K; destruct (IH _ _ _ O3 K); split; [lia|assumption]).
  destruct (is_scalar (e_ev e)); [destruct H as [H|H]; [injection H as <- <-; auto|auto]|]. destruct (is_open (e_ev e)); [|auto].
  destruct H as [H|H]; [|auto]. injection H as <- <-. split; [exact O1|]. destruct (closing 0 r) as [c|] eqn:C; [|exact O2].
  apply closing_in in C. destruct (eord_ge _ _ _ O3 C). lia.
Qed.
Lemma closing_around es : forall lo d c a b, eord lo es -> closing d es = Some c -> In (a, b) (node_marks es) ->
  m_index b <= m_index (e_end c) \/ m_index (e_end c) <= m_index a.
Proof.
  induction es as [|e r IH]; intros lo d c a b O H K; [destruct K|]. cbn [closing node_marks] in *. destruct O as (O1 & O2 & O3).
  destruct (is_scalar (e_ev e)) eqn:Sc.
  - destruct (scalar_open _ Sc) as [So Sl]. rewrite So, Sl in H. destruct K as [K|K]; [|exact (IH _ _ _ _ _ O3 H K)]. injection K as <- <-. left.
    apply closing_in in H. destruct (eord_ge _ _ _ O3 H). lia.
  - destruct (is_open (e_ev e)).
    + destruct K as [K|K]; [|exact (IH _ _ _ _ _ O3 H K)]. injection K as <- <-. left.
      destruct (closing_later _ _ O3 0%nat (S d) c ltac:(lia) H) as (c' & C' & L). rewrite C'. exact L.
    + destruct (is_close (e_ev e)); [|exact (IH _ _ _ _ _ O3 H K)]. destruct d; [|exact (IH _ _ _ _ _ O3 H K)]. injection H as <-. right.
      exact (proj1 (node_marks_in _ _ _ _ O3 K)).
Qed.
(* two nodes lie one behind the other, or the second within the first *)
Theorem node_marks_nested es lo : eord lo es -> forall x a b y c d z, node_marks es = x ++ (a, b) :: y ++ (c, d) :: z ->
  m_index a <= m_index c /\ (m_index b <= m_index c \/ m_index d <= m_index b).
Proof.
  revert lo. induction es as [|e r IH]; intros lo O x a b y c d z H; [destruct x; discriminate|]. cbn [node_marks] in H. destruct O as (O1 & O2 & O3).
  destruct (is_scalar (e_ev e)).
  - destruct x as [|p x]; [|injection H as _ H; exact (IH _ O3 _ _ _ _ _ _ _ H)]. injection H as H1 H2 H. subst a b.
    destruct (node_marks_in r _ c d O3) as [K _]; [rewrite H; apply in_or_app; right; left; reflexivity|]. split; [lia|left; exact K].
  - destruct (is_open (e_ev e)); [|exact (IH _ O3 _ _ _ _ _ _ _ H)].
    destruct x as [|p x]; [|injection H as _ H; exact (IH _ O3 _ _ _ _ _ _ _ H)]. injection H as H1 H2 H. subst a.
    assert (I : In (c, d) (node_marks r)) by (rewrite H; apply in_or_app; right; left; reflexivity).
    destruct (node_marks_in r _ c d O3 I) as [K _]. split; [lia|]. subst b. destruct (closing 0 r) as [cl|] eqn:C; [|left; exact K].
    destruct (closing_around _ _ _ _ _ _ O3 C I); auto.
Qed.

(* documents loaded from a text *)
From Verif Require Import CursorModel ScannerModel ScannerSpec ScannerFinal ParserModel LoaderFinal.
Lemma yields_parse_all es : forall p q, yields p es q -> exists o, parse_all (length es) p = (es, o).
Proof.
  induction es as [|e es IH]; intros p q Y; [exists MoreToCome; reflexivity|]. destruct (yields_inv _ _ _ Y) as (p1 & P & Y1). destruct (IH _ _ Y1) as [o E].
  exists o. cbn [length parse_all]. rewrite P, E. reflexivity.
Qed.
Lemma reading_yields l es q : reading l es q -> exists pre, yields (ld_parser l) (pre ++ es) q.
Proof.
  intros [[_ Y]|[_ (e & enc & p & P & _ & Y)]]; [exists []; exact Y|]. exists [e]. exact (yields_cons _ _ _ _ _ P Y).
Qed.
Lemma mload_of fuel l d l' : load fuel l = LDocument d l' -> exists md, mload fuel l = MDocument md l' /\ md_doc md = d.
Proof.
  rewrite <- mload_unmarked. destruct (mload fuel l) as [md lx|o] eqn:M; cbn [unmarked]; intros H.
  - injection H as <- <-. eauto.
  - exfalso. subst o. revert M. clear.
    assert (K : forall f p s ms (k : parser -> lstate -> list (mark * mark) -> bool -> mark -> mout) dd ll, (forall a b c e g, k a b c e g <> MOther (LDocument dd ll)) -> mload_nodes f p s ms k <> MOther (LDocument dd ll)).
    { induction f as [|f IH]; intros p s ms k dd ll Hk; [discriminate|]. cbn [mload_nodes]. destruct (parse p) as [e p'| | |]; try discriminate.
      destruct (e_ev e); try apply Hk; destruct (load_event s e); try discriminate; apply IH; exact Hk. }
    assert (N : forall p, mload_next fuel p <> MOther (LDocument d l')).
    { intros p. unfold mload_next. destruct (p_end p); [discriminate|]. destruct (parse p) as [e p'| | |]; try discriminate. unfold mload_document.
      destruct (e_ev e); try discriminate. apply K. discriminate. }
    unfold mload. cbv zeta. destruct (ld_started l); [apply N|]. destruct (parse (ld_parser l)) as [e p'| | |]; try discriminate. destruct (e_ev e); try discriminate. apply N.
Qed.
Lemma history_yields fuel input ds l : load_history fuel input ds l -> exists es, yields (init_parser input) es (ld_parser l).
Proof.
  induction 1 as [|ds l d l' H [es Y] L]; [exists []; constructor|]. destruct (mload_of _ _ _ _ L) as (md & M & _).
  destruct (mload_marks _ _ _ _ M) as (st & v & tags & i & es' & stop & j & R & _). destruct (reading_yields _ _ _ R) as [pre Y']. exists (es ++ pre ++ st :: es' ++ [stop]). exact (yields_app _ _ _ _ _ Y Y').
Qed.
Lemma eord_app a : forall lo b, eord lo (a ++ b) -> exists lo', lo <= lo' /\ eord lo' b.
Proof.
  induction a as [|x a IH]; intros lo b H; [exists lo; split; [lia|exact H]|]. destruct H as (H1 & H2 & H3). destruct (IH _ _ H3) as (lo' & L & O). exists lo'. split; [lia|exact O].
Qed.
Lemma eord_front a : forall lo b, eord lo (a ++ b) -> eord lo a.
Proof. induction a as [|x a IH]; intros lo b H; [exact I|]. destruct H as (H1 & H2 & H3). cbn. eauto. Qed.
Lemma eord_last a x : forall lo y, eord lo (a ++ [x]) -> In y a -> m_index (e_end y) <= m_index (e_end x).
Proof.
  induction a as [|z a IH]; intros lo y H Hy; [destruct Hy|]. destruct H as (H1 & H2 & H3). destruct Hy as [<-|Hy]; [|exact (IH _ _ H3 Hy)].
  destruct (eord_ge _ _ x H3 ltac:(apply in_or_app; right; left; reflexivity)). lia.
Qed.
Lemma node_marks_from es : forall a b, In (a, b) (node_marks es) -> exists x y, In x es /\ In y es /\ a = e_start x /\ b = e_end y.
Proof.
  induction es as [|e r IH]; intros a b H; [destruct H|]. cbn [node_marks] in H.
  assert (Z : In (a, b) (node_marks r) -> exists x y, In x (e :: r) /\ In y (e :: r) /\ a = e_start x /\ b = e_end y).
  { intros K. destruct (IH _ _ K) as (x & y & X & Y & E). exists x, y. split; [right; exact X|]. split; [right; exact Y|exact E]. }
  destruct (is_scalar (e_ev e)); [destruct H as [H|H]; [|auto]; injection H as <- <-; exists e, e; repeat split; left; reflexivity|].
  destruct (is_open (e_ev e)); [|auto]. destruct H as [H|H]; [|auto]. injection H as <- <-. destruct (closing 0 r) as [c|] eqn:C.
  - exists e, c. split; [left; reflexivity|]. split; [right; exact (closing_in _ _ _ C)|auto].
  - exists e, e. repeat split; left; reflexivity.
Qed.
Theorem loaded_marks e nest T bad plan input s fuel ds l d l' :
  scans (init_scanner e nest T bad plan) input s -> load_history fuel input ds l -> mload fuel l = MDocument d l' ->
  (forall a b, In (a, b) (md_nodes d) -> is_end_position T a /\ is_end_position T b /\
     m_index (md_start d) <= m_index a /\ m_index a <= m_index b /\ m_index b <= m_index (md_end d)) /\
  (forall x a b y a' b' z, md_nodes d = x ++ (a, b) :: y ++ (a', b') :: z ->
     m_index a <= m_index a' /\ (m_index b <= m_index a' \/ m_index b' <= m_index b)).
Proof.
  intros S H M. destruct (mload_marks _ _ _ _ M) as (st & v & tags & i & es & stop & j & R & _ & _ & M1 & M2 & M3 & _).
  destruct (history_yields _ _ _ _ H) as [es0 Y0]. destruct (reading_yields _ _ _ R) as [pre Y1]. pose proof (yields_app _ _ _ _ _ Y0 Y1) as Y.
  destruct (yields_parse_all _ _ _ Y) as [o E]. pose proof (event_marks e nest T bad plan input s (length (es0 ++ pre ++ st :: es ++ [stop])) S) as K. rewrite E in K. destruct K as (K1 & K2 & _).
  assert (O : eord 0 (es0 ++ pre ++ st :: es ++ [stop])) by (apply in_order_eord; [exact K1|intros; lia]).
  destruct (eord_app _ _ _ O) as (lo1 & _ & O1). destruct (eord_app _ _ _ O1) as (lo2 & _ & O2). destruct O2 as (P1 & P2 & P3).
  pose proof (eord_front _ _ _ P3) as P4. rewrite M1, M2, M3. split.
  - intros a b I. destruct (node_marks_in _ _ _ _ P4 I) as [Q1 Q2]. destruct (node_marks_from _ _ _ I) as (x & y & X & Y' & -> & ->).
    rewrite Forall_forall in K2.
    assert (J : forall w, In w es -> In w (es0 ++ pre ++ st :: es ++ [stop])) by (intros w W; apply in_or_app; right; apply in_or_app; right; right; apply in_or_app; left; exact W).
    split; [exact (proj1 (K2 x (J x X)))|]. split; [exact (proj2 (K2 y (J y Y')))|]. split; [lia|]. split; [exact Q2|]. exact (eord_last _ _ _ _ P3 Y').
  - exact (node_marks_nested es _ P4).
Qed.
