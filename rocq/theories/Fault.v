(* The errors of the composer (C78). *)
From Verif Require Import Base ReaderModel Types TreeSpec CursorModel ScannerModel ScannerSpec ScannerFinal ParserModel ParserSpec DocModel LoaderModel LoaderSpec LoaderFinal MarkLoaderModel NodeMarks EventMarks FaultSpec.

Definition anchored (es : list event) : list (list N * mark) :=
  flat_map (fun x => match anchor_of (e_ev x) with Some a => [(a, e_start x)] | None => [] end) es.
Definition known (s : lstate) : list (list N * mark) := map (fun x => (fst (fst x), snd x)) (l_aliases s).
Lemma anchored_snoc es e : anchored (es ++ [e]) = anchored es ++ match anchor_of (e_ev e) with Some a => [(a, e_start e)] | None => [] end.
Proof. unfold anchored. rewrite flat_map_app. cbn. rewrite app_nil_r. reflexivity. Qed.

Lemma find_known al name i m : find_alias al name = Some (i, m) ->
  exists u v, map (fun x => (fst (fst x), snd x)) al = u ++ (name, m) :: v /\ (forall y, In y u -> fst y <> name).
Proof.
  unfold find_alias. induction al as [|[[a j] k] al IH]; [discriminate|]. cbn [find fst]. destruct (str_eqb_spec a name) as [->|N].
  - intros H. injection H as <- <-. exists [], (map (fun x => (fst (fst x), snd x)) al). split; [reflexivity|intros y []].
  - intros H. destruct (IH H) as (u & v & E & F). exists ((a, k) :: u), v. split; [cbn; rewrite E; reflexivity|]. intros y [<-|Y]; [exact N|auto].
Qed.
Lemma find_unknown al name : find_alias al name = None -> forall y, In y (map (fun x => (fst (fst x), snd x)) al) -> fst y <> name.
Proof.
  unfold find_alias. induction al as [|[[a j] k] al IH]; intros H y Y; [destruct Y|]. cbn [find fst] in H. destruct (str_eqb_spec a name) as [->|N]; [discriminate|].
  destruct Y as [<-|Y]; [exact N|exact (IH H y Y)].
Qed.
(* the event that carries the anchor *)
Lemma anchored_split es : forall u a m v, anchored es = u ++ (a, m) :: v -> (forall y, In y u -> fst y <> a) ->
  exists before x after, es = before ++ x :: after /\ anchor_of (e_ev x) = Some a /\ e_start x = m /\ (forall y, In y before -> anchor_of (e_ev y) <> Some a).
Proof.
  induction es as [|e es IH]; intros u a m v H F; [destruct u; discriminate|]. cbn in H. destruct (anchor_of (e_ev e)) as [b|] eqn:A.
  - destruct u as [|y u]; cbn in H.
    + injection H as -> <- _. exists [], e, es. split; [reflexivity|]. split; [exact A|]. split; [reflexivity|intros y []].
    + injection H as H1 H. subst y. destruct (IH u a m v H) as (before & x & after & E & X1 & X2 & X3); [intros y Y; apply F; right; exact Y|].
      exists (e :: before), x, after. split; [cbn; rewrite E; reflexivity|]. split; [exact X1|]. split; [exact X2|]. intros y [<-|Y]; [|auto].
      rewrite A. intros K. injection K as ->. exact (F _ (or_introl eq_refl) eq_refl).
  - destruct (IH u a m v H F) as (before & x & after & E & X1 & X2 & X3). exists (e :: before), x, after. split; [cbn; rewrite E; reflexivity|]. split; [exact X1|]. split; [exact X2|].
    intros y [<-|Y]; [rewrite A; discriminate|auto].
Qed.
Lemma anchored_in es x a : In x es -> anchor_of (e_ev x) = Some a -> In (a, e_start x) (anchored es).
Proof. intros H A. apply in_flat_map. exists x. split; [exact H|]. rewrite A. left. reflexivity. Qed.

Lemma node_add_known s i : match load_node_add s i with LNext s' => l_aliases s' = l_aliases s | LError _ => False | _ => True end.
Proof.
  unfold load_node_add. destruct (l_ctx s) as [|p ctx]; [reflexivity|]. destruct (node_ref (l_nodes s) p) as [[tag [v st|items st|pairs st]]|]; reflexivity || exact I.
Qed.
Lemma new_known es s n e : known s = anchored es ->
  match load_new s n (anchor_of (e_ev e)) (e_start e) with
  | LNext s' => known s' = anchored (es ++ [e])
  | LError er => fault es e er
  | _ => True
  end.
Proof.
  intros K. unfold load_new, register_anchor. cbv zeta. rewrite anchored_snoc. destruct (anchor_of (e_ev e)) as [a|] eqn:A.
  - cbn [push_new l_aliases]. destruct (find_alias (l_aliases s) a) as [[j m]|] eqn:F; cbn [lbind].
    + destruct (find_known _ _ _ _ F) as (u & v & E & N). unfold known in K. rewrite E in K. destruct (anchored_split es u a m v (eq_sym K) N) as (before & x & after & X & X1 & X2 & X3).
      rewrite <- X2. exact (Fa_anchor es e a before x after A X X1 X3).
    + match goal with |- context [load_node_add ?q ?i] => pose proof (node_add_known q i) as L; destruct (load_node_add q i) as [s1| | |] end; try exact I; [|destruct L].
      unfold known. rewrite L. cbn [l_aliases]. rewrite map_app. cbn [map fst snd]. unfold known in K. rewrite K. reflexivity.
  - cbn [lbind]. rewrite app_nil_r. match goal with |- context [load_node_add ?q ?i] => pose proof (node_add_known q i) as L; destruct (load_node_add q i) as [s1| | |] end; try exact I; [|destruct L].
    unfold known. rewrite L. exact K.
Qed.
Lemma event_known es s e : known s = anchored es ->
  match load_event s e with
  | LNext s' => known s' = anchored (es ++ [e])
  | LError er => fault es e er
  | _ => True
  end.
Proof.
  intros K. unfold load_event.
  assert (En : forall b, anchor_of (e_ev e) = None -> match load_end s b with LNext s' => known s' = anchored (es ++ [e]) | LError er => fault es e er | _ => True end).
  { intros b A. rewrite anchored_snoc, A, app_nil_r. unfold load_end. destruct (l_ctx s); [exact I|]. destruct (node_ref _ _) as [x|]; [|exact I]. destruct (n_data x); destruct b; try exact I; exact K. }
  destruct (e_ev e) eqn:E; try exact I.
  - unfold load_alias. destruct (find_alias (l_aliases s) anchor) as [[j m]|] eqn:F.
    + pose proof (node_add_known s j) as L. destruct (load_node_add s j) as [s1| | |]; try exact I; [|destruct L]. rewrite anchored_snoc, E. cbn. rewrite app_nil_r. unfold known. rewrite L. exact K.
    + apply (Fa_alias es e anchor E). intros x X A. pose proof (find_unknown _ _ F (anchor, e_start x)) as U. unfold known in K. rewrite K in U.
      exact (U (anchored_in es x anchor X A) eq_refl).
  - pose proof (fun n => new_known es s n e K) as N. rewrite E in N. cbn [anchor_of] in N. apply N.
  - unfold load_sequence. pose proof (new_known es s (mkNode (choose_tag tag default_sequence_tag) (NSequence [] style)) e K) as N. rewrite E in N. cbn [anchor_of] in N.
    destruct (load_new _ _ _ _) as [s1| | |]; try exact N. 
  - exact (En false eq_refl).
  - unfold load_mapping. pose proof (new_known es s (mkNode (choose_tag tag default_mapping_tag) (NMapping [] style)) e K) as N. rewrite E in N. cbn [anchor_of] in N.
    destruct (load_new _ _ _ _) as [s1| | |]; try exact N.
  - exact (En true eq_refl).
Qed.

Lemma nodes_fault fuel : forall p0 all p es s k l', yields p0 (all ++ es) p -> known s = anchored es ->
  (forall p s b, k p s b <> LFailed l') -> load_nodes fuel p s k = LFailed l' ->
  (exists xs q, yields p0 xs q /\ parse q = PFail (ld_parser l')) \/
  (exists es' e q err, yields p0 (all ++ es' ++ [e]) q /\ fault es' e err /\ ld_parser l' = set_error q err).
Proof.
  induction fuel as [|f IH]; intros p0 all p es s k l' Y K Hk H; [discriminate|]. cbn [load_nodes] in H.
  destruct (parse p) as [e p'| |p'|] eqn:P; try discriminate.
  - pose proof (Y_call _ _ _ _ _ Y P) as Y'. rewrite <- app_assoc in Y'. pose proof (event_known es s e K) as N.
    assert (Z : (match load_event s e with
                 | LNext s' => load_nodes f p' s' k
                 | LError err => LFailed (mkLoader (set_error p' err) true)
                 | LAssertion => LAssertFail
                 | LUndefined => LUB
                 end) = LFailed l' -> (exists xs q, yields p0 xs q /\ parse q = PFail (ld_parser l')) \/
      (exists es' e q err, yields p0 (all ++ es' ++ [e]) q /\ fault es' e err /\ ld_parser l' = set_error q err)).
    { destruct (load_event s e) as [s'|er| |] eqn:L; try discriminate; intros Z; [exact (IH p0 all p' (es ++ [e]) s' k l' Y' N Hk Z)|].
      injection Z as <-. right. exists es, e, p', er. auto. }
    destruct (e_ev e); try exact (Z H). exfalso. exact (Hk _ _ _ H).
  - injection H as <-. left. exists (all ++ es), p. auto.
Qed.
Theorem load_fault fuel l l' : load fuel l = LFailed l' ->
  (exists xs q, yields (ld_parser l) xs q /\ parse q = PFail (ld_parser l')) \/
  (exists start v tags i es e q err, reading l (start :: es ++ [e]) q /\ e_ev start = EDocStart v tags i /\ fault es e err /\ ld_parser l' = set_error q err).
Proof.
  intros H.
  assert (N : forall p, load_next fuel p = LFailed l' -> (exists xs q, yields p xs q /\ parse q = PFail (ld_parser l')) \/
    (exists start v tags i es e q err, yields p (start :: es ++ [e]) q /\ e_ev start = EDocStart v tags i /\ fault es e err /\ ld_parser l' = set_error q err)).
  { intros p K. unfold load_next in K. destruct (p_end p); [discriminate|]. destruct (parse p) as [e p'| |p'|] eqn:P; try discriminate.
    - assert (K' : load_document fuel p' e = LFailed l') by (destruct (e_ev e); try discriminate; exact K). clear K. unfold load_document in K'.
      destruct (e_ev e) as [| |v tags i| | | | | | | ] eqn:E; try discriminate.
      assert (Y0 : yields p ([e] ++ []) p') by exact (Y_call p [] p e p' (Y_none p) P).
      apply (nodes_fault fuel p [e] p' [] (mkLstate [] [] []) _ l' Y0 eq_refl) in K'; [|intros; discriminate]. destruct K' as [L|(es & x & q & err & Y & F & R)]; [left; exact L|].
      right. exists e, v, tags, i, es, x, q, err. auto.
    - injection K as <-. left. exists [], p. split; [constructor|exact P]. }
  unfold load in H. cbv zeta in H. unfold reading. destruct (ld_started l).
  - destruct (N _ H) as [L|(start & v & tags & i & es & e & q & err & Y & R)]; [left; exact L|]. right. exists start, v, tags, i, es, e, q, err. auto.
  - destruct (parse (ld_parser l)) as [e p'| |p'|] eqn:P; try discriminate.
    + destruct (e_ev e) eqn:E; try discriminate. destruct (N _ H) as [(xs & q & Y & F)|(start & v & tags & i & es & x & q & err & Y & R)].
      * left. exists (e :: xs), q. split; [exact (yields_cons _ _ _ _ _ P Y)|exact F].
      * right. exists start, v, tags, i, es, x, q, err. split; [|exact R]. right. split; [reflexivity|]. eauto 8.
    + injection H as <-. left. exists [], (ld_parser l). split; [constructor|exact P].
Qed.

(* the marks of the error are positions of the text *)
Lemma yields_all es : forall p q n, yields p es q -> let (r, o) := parse_all n q in parse_all (length es + n) p = (es ++ r, o).
Proof.
  induction es as [|e es IH]; intros p q n Y.
  - destruct (yields_inv _ _ _ Y). cbn. destruct (parse_all n p). reflexivity.
  - destruct (yields_inv _ _ _ Y) as (p1 & P & Y1). specialize (IH _ _ n Y1). destruct (parse_all n q) as [r o]. cbn [length Nat.add parse_all app]. rewrite P, IH. reflexivity.
Qed.
Theorem fault_marks e nest T bad plan input s fuel ds l l' er m :
  scans (init_scanner e nest T bad plan) input s -> load_history fuel input ds l -> load fuel l = LFailed l' ->
  p_error (ld_parser l') = Some er -> pe_context er = Some m \/ pe_mark er = Some m -> is_end_position T m.
Proof.
  intros S H F E M. destruct (history_yields _ _ _ _ H) as [es0 Y0]. destruct (load_fault _ _ _ F) as [(xs & q & Y & P)|(start & v & tags & i & es & x & q & err & R & _ & Fa & Er)].
  - pose proof (yields_app _ _ _ _ _ Y0 Y) as Y'. pose proof (yields_all _ _ _ 1%nat Y') as A. cbn [parse_all] in A. rewrite P in A.
    pose proof (event_marks e nest T bad plan input s (length (es0 ++ xs) + 1)%nat S) as K. rewrite A in K. destruct K as (_ & _ & K). rewrite E in K. exact (K er m eq_refl M).
  - destruct (reading_yields _ _ _ R) as [pre Y1]. pose proof (yields_app _ _ _ _ _ Y0 Y1) as Y. destruct (yields_parse_all _ _ _ Y) as [o A].
    pose proof (event_marks e nest T bad plan input s (length (es0 ++ pre ++ start :: es ++ [x])) S) as K. rewrite A in K. destruct K as (_ & K & _). rewrite Forall_forall in K.
    assert (J : forall w, In w (es ++ [x]) -> is_end_position T (e_start w)) by (intros w W; apply (K w); apply in_or_app; right; apply in_or_app; right; right; exact W).
    rewrite Er in E. cbn in E. injection E as <-. destruct Fa as [a A1 A2|a before y after A1 A2 A3 A4]; cbn in M; destruct M as [M|M]; try discriminate; injection M as <-.
    + apply J. apply in_or_app. right. left. reflexivity.
    + apply J. subst es. rewrite <- app_assoc. apply in_or_app. right. left. reflexivity.
    + apply J. apply in_or_app. right. left. reflexivity.
Qed.
