(* The loader driven by the parser. *)
From Verif Require Import Base ReaderModel Types TreeSpec EventAcc DocModel DocSpec ParserModel ParserSpec ParserProofs ParserFinal LoaderModel LoaderSpec LoaderProofs.

Lemma yields_history input es0 p0 es p : history input es0 p0 -> yields p0 es p -> history input (es0 ++ es) p.
Proof.
  intros H Y. induction Y as [|es q e q' Y IH E]; [rewrite app_nil_r; exact H|]. rewrite app_assoc. econstructor; eauto.
Qed.
Lemma yields_cons p e p1 es q : parse p = PEvent e p1 -> yields p1 es q -> yields p (e :: es) q.
Proof.
  intros E Y. induction Y as [|es q e' q' Y IH E']; [apply (Y_call p [] p e p1); [constructor|exact E]|].
  change (e :: es ++ [e']) with ((e :: es) ++ [e']). econstructor; eauto.
Qed.
Lemma yields_inv p es q : yields p es q -> match es with [] => p = q | e :: r => exists p1, parse p = PEvent e p1 /\ yields p1 r q end.
Proof.
  induction 1 as [|es q e q' Y IH E]; [reflexivity|]. destruct es as [|e0 r]; cbn.
  - subst. exists q'. split; [exact E|constructor].
  - destruct IH as (p1 & E1 & Y1). exists p1. split; [exact E1|]. econstructor; eauto.
Qed.
Lemma yields_app p a q b r : yields p a q -> yields q b r -> yields p (a ++ b) r.
Proof. intros Y Z. induction Z; [rewrite app_nil_r; exact Y|]. rewrite app_assoc. econstructor; eauto. Qed.
(* two runs of the parser: one continues the other *)
Lemma yields_comparable a : forall p q b r, yields p a q -> yields p b r ->
  (exists c, b = a ++ c /\ yields q c r) \/ (exists c, a = b ++ c /\ yields r c q).
Proof.
  induction a as [|e a IH]; intros p q b r Y Z.
  - apply yields_inv in Y. subst. left. exists b. auto.
  - destruct b as [|e' b].
    + apply yields_inv in Z. subst. right. exists (e :: a). auto.
    + apply yields_inv in Y. apply yields_inv in Z. destruct Y as (p1 & E & Y). destruct Z as (p2 & E' & Z).
      rewrite E in E'. inversion E'; subst. destruct (IH _ _ _ _ Y Z) as [(c & -> & K)|(c & -> & K)]; [left|right]; exists c; auto.
Qed.
Lemma yields_failed q p' c r : parse q = PFail p' -> yields q c r -> c = [] /\ r = q.
Proof. intros E Y. apply yields_inv in Y. destruct c; [auto|]. destruct Y as (p1 & E' & _). congruence. Qed.

Definition not_end (e : ev) : Prop := forall i, e <> EDocEnd i.
Lemma events_not_end t : Forall not_end (events_of t).
Proof.
  induction t as [a|a tag v pi qi st|a tag im st items IH|a tag im st pairs IH] using tree_induction; cbn.
  - repeat constructor; discriminate.
  - repeat constructor; discriminate.
  - constructor; [intros i; discriminate|]. apply Forall_app. split; [|repeat constructor; discriminate].
    induction IH; cbn; auto. apply Forall_app; auto.
  - constructor; [intros i; discriminate|]. apply Forall_app. split; [|repeat constructor; discriminate].
    induction IH as [|[k v] r [K V] F IH]; cbn; auto. cbn in *. apply Forall_app. split; auto. apply Forall_app; auto.
Qed.
Lemma split_end a i b : forall c j d, Forall not_end a -> Forall not_end c -> a ++ EDocEnd i :: b = c ++ EDocEnd j :: d -> a = c /\ i = j /\ b = d.
Proof.
  induction a as [|x a IH]; intros [|y c] j d A C E; cbn in E; inversion E; subst.
  - auto.
  - inversion C as [|u w U W]; subst. destruct (U i eq_refl).
  - inversion A as [|u w U W]; subst. destruct (U j eq_refl).
  - inversion A; inversion C; subst. destruct (IH c j d) as (-> & -> & ->); auto.
Qed.
Lemma prefix_end a : forall fs c j d, Forall not_end a -> a ++ fs = c ++ EDocEnd j :: d -> exists g, a ++ g = c.
Proof.
  induction a as [|x a IH]; intros fs c j d A E; cbn in E; [exists c; reflexivity|]. inversion A as [|u w U W]; subst.
  destruct c as [|y c]; cbn in E; inversion E; subst; [destruct (U j eq_refl)|].
  match goal with H : a ++ fs = _ |- _ => destruct (IH _ _ _ _ W H) as (g & <-) end. exists g. reflexivity.
Qed.
Lemma prefix_tree es a : arun (AIn [FRoot]) es = Some a -> Forall not_end es -> exists t fs, es ++ fs = events_of t.
Proof.
  intros R F. assert (OK0 : aok (AIn [FRoot]) = true) by reflexivity. pose proof (arun_ok _ _ _ OK0 R) as O. destruct (arest_exists _ O) as (fs & AR).
  pose proof (arun_rest _ _ _ _ OK0 R AR) as K. inversion K as [| |st es' S|]; subst.
  inversion S as [f es' docs _ FR|f r es' fs' X]; subst; [|congruence]. inversion FR as [t i| | | |]; subst.
  match goal with Q : _ = es ++ fs |- _ => rename Q into H end. exists t. rewrite <- !app_assoc in H. cbn [app] in H. symmetry in H. eapply prefix_end; [exact F|exact H].
Qed.
Lemma whole_tree es i a : arun (AIn [FRoot]) (es ++ [EDocEnd i]) = Some a -> Forall not_end es -> exists t, es = events_of t.
Proof.
  intros R F. assert (OK0 : aok (AIn [FRoot]) = true) by reflexivity. pose proof (arun_ok _ _ _ OK0 R) as O. destruct (arest_exists _ O) as (fs & AR).
  pose proof (arun_rest _ _ _ _ OK0 R AR) as K. inversion K as [| |st es' S|]; subst.
  inversion S as [f es' docs _ FR|f r es' fs' X]; subst; [|congruence]. inversion FR as [t j| | | |]; subst.
  match goal with Q : _ = (es ++ _) ++ fs |- _ => rename Q into H end. exists t. rewrite <- !app_assoc in H. cbn [app] in H. destruct (split_end _ _ _ _ _ _ (events_not_end t) F H) as (-> & _). reflexivity.
Qed.

Definition s0 : lstate := mkLstate [] [] [].
Lemma s0_ok : sok s0. Proof. split; [exact I|constructor]. Qed.

Definition no_assertion (r : lstep) : Prop := match r with LNext _ | LError _ => True | _ => False end.
Lemma prefix_safe es a : arun (AIn [FRoot]) (map e_ev es) = Some a -> Forall not_end (map e_ev es) -> no_assertion (load_all s0 es).
Proof.
  intros R F. destruct (prefix_tree _ _ R F) as (t & fs & E).
  pose proof (load_tree t s0 (es ++ map (fun e => mkEvent e mark0 mark0) fs)) as L.
  rewrite map_app, map_map in L. cbn in L. rewrite map_id in L. specialize (L E s0_ok). rewrite load_all_app in L.
  unfold loaded in L. destruct (build t _ _) as [[[new i] env]|].
  - destruct L as (al & _ & L). destruct (load_all s0 es); cbn in *; auto; discriminate.
  - destruct L as (e & L). destruct (load_all s0 es); cbn in *; auto; discriminate.
Qed.

Lemma load_all_scoped es : forall s before s', knows s before -> load_all s es = LNext s' ->
  knows s' (before ++ map e_ev es) /\ forall b e a pr, map e_ev es = b ++ e :: a -> ~ composer_error (before ++ b) e pr.
Proof.
  induction es as [|e es IH]; intros s before s' K L; cbn in L.
  - inversion L; subst. cbn. rewrite app_nil_r. split; [exact K|]. intros [|x b] e a pr E; discriminate.
  - pose proof (load_event_names s e before K) as N. destruct (load_event s e) as [s1| | |]; try discriminate. cbn in L.
    destruct N as (K1 & N). destruct (IH _ _ _ K1 L) as (K2 & S2). cbn [map]. split; [rewrite <- app_assoc in K2; exact K2|].
    intros [|x b] e' a pr E C; cbn in E; inversion E; subst; [rewrite app_nil_r in C; exact (N _ C)|].
    apply (S2 b e' a pr); auto. rewrite <- app_assoc. exact C.
Qed.
Lemma knows0 : knows s0 []. Proof. reflexivity. Qed.

Lemma acc_end es a : arun AStart (es ++ [EStreamEnd]) = Some a -> a = ADone.
Proof.
  rewrite arun_app. destruct (arun AStart es) as [[| |[|[] [|]]|]|]; cbn; intros E; inversion E; reflexivity.
Qed.
Lemma astep_inside st e a : astep (AIn st) e = Some a -> not_end e -> exists st', a = AIn st'.
Proof.
  intros E N. destruct st as [|f r]; cbn in E; [discriminate|].
  destruct f, e; cbn in E; try discriminate; try (inversion E; eauto; fail); destruct r; try discriminate; try (inversion E; eauto; fail).
  destruct (N implicit eq_refl).
Qed.
Lemma acc_inside es : forall st a, arun (AIn st) es = Some a -> Forall not_end es -> exists st', a = AIn st'.
Proof.
  induction es as [|e es IH]; intros st a E F; cbn [arun] in E; [inversion E; eauto|]. inversion F as [|u w U W]; subst.
  destruct (astep (AIn st) e) as [a1|] eqn:A; [|discriminate]. destruct (astep_inside _ _ _ A U) as (st' & ->). eauto.
Qed.

Inductive nodes_case (p0 : parser) (k : parser -> lstate -> bool -> lout) : lout -> Prop :=
| NC_done es e p s t i : yields p0 (es ++ [e]) p -> e_ev e = EDocEnd i -> map e_ev es = events_of t -> load_all s0 es = LNext s ->
    nodes_case p0 k (k p s i)
| NC_parse es q q' : yields p0 es q -> parse q = PFail q' -> Forall not_end (map e_ev es) -> well_scoped (map e_ev es) -> nodes_case p0 k (LFailed (mkLoader q' true))
| NC_compose es e q err : yields p0 (es ++ [e]) q -> Forall not_end (map e_ev es) -> well_scoped (map e_ev es) -> composer_error (map e_ev es) (e_ev e) (pe_problem err) ->
    nodes_case p0 k (LFailed (mkLoader (set_error q err) true)).

Lemma load_nodes_case input es0 p0 k : history input es0 p0 -> arun AStart (map e_ev es0) = Some (AIn [FRoot]) ->
  forall fuel es p s, yields p0 es p -> load_all s0 es = LNext s -> Forall not_end (map e_ev es) ->
  (4 * length input < fuel + length es)%nat -> nodes_case p0 k (load_nodes fuel p s k).
Proof.
  intros H0 A0. induction fuel as [|fuel IH]; intros es p s Y L F B.
  - exfalso. pose proof (history_length _ _ _ (yields_history _ _ _ _ _ H0 Y)) as HL. rewrite app_length in HL. lia.
  - pose proof (yields_history _ _ _ _ _ H0 Y) as H. pose proof (history_next _ _ _ H) as N. cbn [load_nodes].
    destruct (load_all_scoped _ _ _ _ knows0 L) as (_ & SC). cbn [app] in SC.
    assert (W : well_scoped (map e_ev es)) by (intros b e a pr E; apply (SC _ _ _ _ E)).
    destruct (parse p) as [e p'|p'|p'|] eqn:EP.
    + assert (Y' : yields p0 (es ++ [e]) p') by (econstructor; eauto).
      pose proof (yields_history _ _ _ _ _ H0 Y') as H'. pose proof (history_prefix _ _ _ H') as WF.
      apply well_formed_prefix_acc in WF. destruct WF as (a & WF). rewrite map_app, arun_app, A0 in WF.
      assert (D : (exists i, e_ev e = EDocEnd i) \/ not_end (e_ev e)).
      { destruct (e_ev e); try (right; intros j; discriminate). left. eauto. }
      destruct D as [(i & ED)|D].
      * rewrite ED. rewrite map_app in WF. cbn in WF. rewrite ED in WF. destruct (whole_tree _ _ _ WF F) as (t & T).
        eapply NC_done; eauto.
      * assert (F' : Forall not_end (map e_ev (es ++ [e]))) by (rewrite map_app; apply Forall_app; split; [exact F|repeat constructor; exact D]).
        pose proof (prefix_safe _ _ WF F') as PS. rewrite load_all_app, L in PS. cbn in PS.
        pose proof (load_event_names s e (map e_ev es)) as LN.
        assert (KS : knows s (map e_ev es)) by (apply (load_all_scoped es s0 [] s knows0 L)). specialize (LN KS).
        replace (match e_ev e with EDocEnd implicit => k p' s implicit | _ => match load_event s e with LNext s' => load_nodes fuel p' s' k
             | LError err => LFailed (mkLoader (set_error p' err) true) | LAssertion => LAssertFail | LUndefined => LUB end end)
          with (match load_event s e with LNext s' => load_nodes fuel p' s' k
             | LError err => LFailed (mkLoader (set_error p' err) true) | LAssertion => LAssertFail | LUndefined => LUB end)
          by (destruct (e_ev e); try reflexivity; destruct (D implicit eq_refl)).
        destruct (load_event s e) as [s'|err| |] eqn:LE; try contradiction.
        -- apply (IH (es ++ [e])); auto; [|rewrite app_length; cbn; lia]. rewrite load_all_app, L. cbn. rewrite LE. reflexivity.
        -- eapply NC_compose; eauto.
    + exfalso. destruct N as (_ & es' & E). pose proof (history_prefix _ _ _ H) as WF. apply well_formed_prefix_acc in WF. destruct WF as (a & WF).
      pose proof WF as WF'. rewrite E in WF'. apply acc_end in WF'. subst a. rewrite map_app, arun_app, A0 in WF.
      destruct (acc_inside _ _ _ WF F) as (st & X). discriminate.
    + destruct N as (_ & _). eapply NC_parse; eauto.
    + contradiction.
Qed.

Inductive next_case (p : parser) : lout -> Prop :=
| XC_doc es p' dt d : yields p es p' -> map e_ev es = doc_events dt -> document_of dt d -> well_scoped (events_of (dt_root dt)) ->
    next_case p (LDocument d (mkLoader p' true))
| XC_end e p' : parse p = PEvent e p' -> e_ev e = EStreamEnd -> next_case p (LNoDocument (mkLoader p' true))
| XC_parse0 q' : parse p = PFail q' -> next_case p (LFailed (mkLoader q' true))
| XC_parse e0 es q q' v ds i : yields p (e0 :: es) q -> e_ev e0 = EDocStart v ds i -> Forall not_end (map e_ev es) -> well_scoped (map e_ev es) -> parse q = PFail q' ->
    next_case p (LFailed (mkLoader q' true))
| XC_compose e0 es e q err v ds i : yields p (e0 :: es ++ [e]) q -> e_ev e0 = EDocStart v ds i -> Forall not_end (map e_ev es) -> well_scoped (map e_ev es) ->
    composer_error (map e_ev es) (e_ev e) (pe_problem err) -> next_case p (LFailed (mkLoader (set_error q err) true)).

Lemma abs_not_end p : abs p = ADocs -> p_state p <> PS_End.
Proof. unfold abs. destruct (p_state p); intros; discriminate. Qed.
Lemma history_not_end input es p : history input es p -> arun AStart (map e_ev es) = Some ADocs -> p_end p = false.
Proof.
  intros H A. apply history_inv in H. destruct H as [[W|[S _]] I2 I3 _ _]; [apply W|]. rewrite A in I3. inversion I3 as [E].
  destruct (abs_not_end p (eq_sym E) S).
Qed.

Lemma load_next_case input es p fuel : history input es p -> arun AStart (map e_ev es) = Some ADocs -> (4 * length input < fuel)%nat ->
  next_case p (load_next fuel p).
Proof.
  intros H A B. unfold load_next. rewrite (history_not_end _ _ _ H A). pose proof (history_next _ _ _ H) as N.
  destruct (parse p) as [e p'|p'|p'|] eqn:EP.
  - assert (H' : history input (es ++ [e]) p') by (econstructor; eauto).
    pose proof (history_prefix _ _ _ H') as WF. apply well_formed_prefix_acc in WF. destruct WF as (a & WF). rewrite map_app, arun_app, A in WF.
    cbn in WF. destruct (e_ev e) as [| |v tags im| | | | | | |] eqn:EE; try discriminate.
    + eapply XC_end; eauto.
    + inversion WF; subst a. unfold load_document. rewrite EE.
      assert (A' : arun AStart (map e_ev (es ++ [e])) = Some (AIn [FRoot])) by (rewrite map_app, arun_app, A; cbn; rewrite EE; reflexivity).
      set (k := fun p' s end_implicit => LDocument (mkDoc (l_nodes s) v tags im end_implicit) (mkLoader p' true)).
      pose proof (load_nodes_case input _ _ k H' A' fuel [] p' s0 (Y_none _) eq_refl (Forall_nil _)) as NC.
      cbn [length] in NC. rewrite Nat.add_0_r in NC. specialize (NC B). change (mkLstate [] [] []) with s0.
      destruct NC as [es1 e1 p1 s t i Y ED T L|es1 q q' Y F NE W|es1 e1 q err Y NE W C].
      * pose proof (load_tree t s0 es1 T s0_ok) as LT. unfold loaded in LT. rewrite L in LT. cbn [l_nodes l_ctx s0 names l_aliases map length] in LT.
        destruct (build t [] 0) as [[[new id] env]|] eqn:BT; [|destruct LT; discriminate].
        destruct LT as (al & AL & E). inversion E; subst s. cbn [attach app] in *.
        assert (D : denotes (mkDoc new v tags im i) [] 0 t id env (0 + length new)).
        { apply (build_denotes t [] new id env (mkDoc new v tags im i) [] []); [exact BT|]. cbn. rewrite app_nil_r. reflexivity. }
        assert (I1 : id = 1%nat).
        { inversion D; subst; auto. match goal with K : In _ [] |- _ => destruct K end. }
        subst id. apply XC_doc with (es := e :: es1 ++ [e1]) (dt := mkDocTree v tags im t i).
        -- eapply yields_cons; eauto.
        -- cbn. rewrite EE, map_app, T. cbn. rewrite ED. reflexivity.
        -- unfold document_of, k; cbn. repeat split; auto. exists env. exact D.
        -- cbn. rewrite <- T. destruct (load_all_scoped _ _ _ _ knows0 L) as (_ & SC). intros b x a pr Eq. apply (SC _ _ _ _ Eq).
      * eapply XC_parse with (e0 := e); eauto. eapply yields_cons; eauto.
      * eapply XC_compose with (e0 := e); eauto. eapply yields_cons; eauto.
  - exfalso. destruct N as (_ & es' & E). rewrite E in A. apply acc_end in A. discriminate.
  - apply XC_parse0. exact EP.
  - contradiction.
Qed.

(* the state between calls *)
Inductive between (input : list token) (ds : list document) (l : loader) : Prop :=
| B_start : ds = [] -> l = init_loader input -> between input ds l
| B_docs es enc ts : history input es (ld_parser l) -> ld_started l = true ->
    map e_ev es = EStreamStart enc :: flat_map doc_events ts -> Forall2 document_of ts ds -> between input ds l.
Lemma acc_docs enc ts : arun AStart (EStreamStart enc :: flat_map doc_events ts) = Some ADocs.
Proof. cbn. induction ts as [|t ts IH]; [reflexivity|]. cbn [flat_map]. rewrite arun_app, arun_doc. exact IH. Qed.

(* one call, from the beginning or from a later state *)
Inductive load_case (input : list token) (l : loader) : lout -> Prop :=
| LC_start e p' r : ld_started l = false -> l = init_loader input -> parse (ld_parser l) = PEvent e p' ->
    (exists enc, e_ev e = EStreamStart enc) -> next_case p' r -> load_case input l r
| LC_fail q' b : l = init_loader input -> parse (ld_parser l) = PFail q' -> load_case input l (LFailed (mkLoader q' b))
| LC_next r : ld_started l = true -> next_case (ld_parser l) r -> load_case input l r.

Lemma load_cases input ds l fuel : between input ds l -> (4 * length input < fuel)%nat -> load_case input l (load fuel l).
Proof.
  intros [-> ->|es enc ts H S E F] B.
  - pose proof (H_start input) as H. unfold load. cbn [ld_started init_loader ld_parser].
    pose proof (history_next _ _ _ H) as N. destruct (parse (init_parser input)) as [e p'|p'|p'|] eqn:EP.
    + assert (H' : history input ([] ++ [e]) p') by (econstructor; eauto).
      pose proof (history_prefix _ _ _ H') as WF. apply well_formed_prefix_acc in WF. destruct WF as (a & WF). cbn in WF.
      destruct (e_ev e) eqn:EE; try discriminate. eapply LC_start; eauto.
      apply (load_next_case input ([] ++ [e])); auto. cbn. rewrite EE. reflexivity.
    + destruct N as (_ & es' & E). destruct es'; discriminate.
    + apply LC_fail; auto.
    + contradiction.
  - unfold load. rewrite S. apply LC_next; auto. eapply load_next_case; eauto. rewrite E. apply acc_docs.
Qed.

Lemma history_between fuel input ds l : (4 * length input < fuel)%nat -> load_history fuel input ds l -> between input ds l.
Proof.
  intros B. induction 1 as [|ds l d l' H IH E]; [apply B_start; reflexivity|].
  pose proof (load_cases _ _ _ _ IH B) as C. rewrite E in C. inversion C as [e p' r S EI EP ENC XC| |r S XC]; subst.
  - inversion XC as [es p1 dt d' Y T D W| | | |]; subst. destruct ENC as (enc & EE).
    destruct IH as [-> _|es0 enc0 ts0 H0 S0 E0 F0]; [|cbn in S0; discriminate].
    apply B_docs with (es := [e] ++ es) (enc := enc) (ts := [dt]).
    + cbn [ld_parser]. eapply yields_history; [|exact Y]. apply (H_call input [] (init_parser input) e p'); [constructor|exact EP].
    + reflexivity.
    + cbn. rewrite EE, T, app_nil_r. reflexivity.
    + constructor; [exact D|constructor].
  - inversion XC as [es p1 dt d' Y T D W| | | |]; subst.
    destruct IH as [-> ->|es0 enc0 ts0 H0 S0 E0 F0]; [cbn in S; discriminate|].
    apply B_docs with (es := es0 ++ es) (enc := enc0) (ts := ts0 ++ [dt]).
    + eapply yields_history; eauto.
    + reflexivity.
    + rewrite map_app, E0, T, flat_map_app. cbn. rewrite app_nil_r. reflexivity.
    + apply Forall2_app; auto.
Qed.

(** C30 *)
Lemma load_denotes fuel input ds l : (4 * length input < fuel)%nat -> load_history fuel input ds l ->
  ds = [] \/ exists es enc ts, history input es (ld_parser l) /\ map e_ev es = EStreamStart enc :: flat_map doc_events ts /\ Forall2 document_of ts ds.
Proof.
  intros B H. destruct (history_between _ _ _ _ B H) as [->|es enc ts H0 S0 E0 F0]; eauto 10.
Qed.

(** C28 *)
Scheme denotes_m := Induction for denotes Sort Prop
  with items_m := Induction for denotes_items Sort Prop
  with pairs_m := Induction for denotes_pairs Sort Prop.
Combined Scheme denotes_mutual from denotes_m, items_m, pairs_m.

Section wf.
  Variable d : document.
  Definition inside (n n' : nat) : Prop :=
    forall j m c, (n < j <= n')%nat -> node_at d j = Some m -> In c (children m) -> (1 <= c <= n')%nat.
  Definition parented (n n' : nat) (roots : list nat) : Prop :=
    forall j, (n < j <= n')%nat -> In j roots \/ exists k m, (n < k < j)%nat /\ node_at d k = Some m /\ In j (children m).
  Definition range (env : anchors) (n : nat) := env_ok env n.
  Definition Pn env n (t : tree) i env' n' := range env n -> (n <= n')%nat /\ range env' n' /\ (1 <= i <= n')%nat /\ inside n n' /\ parented n n' [i].
  Definition Pi env n (ts : list tree) is env' n' := range env n -> (n <= n')%nat /\ range env' n' /\ Forall (fun i => 1 <= i <= n')%nat is /\ inside n n' /\ parented n n' is.
  Definition Pp env n (ts : list (tree * tree)) is env' n' := range env n -> (n <= n')%nat /\ range env' n' /\
    Forall (fun i => 1 <= i <= n')%nat (flat_map (fun p => [fst p; snd p]) is) /\ inside n n' /\ parented n n' (flat_map (fun p : nat * nat => [fst p; snd p]) is).

  Lemma inside_trans a b c : (b <= c)%nat -> inside a b -> inside b c -> inside a c.
  Proof.
    intros L X Y j m x J E I. destruct (Nat.le_gt_cases j b) as [LE|GT].
    - specialize (X j m x ltac:(lia) E I). lia.
    - apply (Y j m x ltac:(lia) E I).
  Qed.
  Lemma parented_trans a b c r1 r2 : (a <= b)%nat -> parented a b r1 -> parented b c r2 -> parented a c (r1 ++ r2).
  Proof.
    intros L X Y j J. destruct (Nat.le_gt_cases j b) as [LE|GT].
    - destruct (X j ltac:(lia)) as [I|K]; [left; apply in_or_app; auto|right; exact K].
    - destruct (Y j ltac:(lia)) as [I|(k & m & K & E & I)]; [left; apply in_or_app; auto|right]. exists k, m. split; [lia|auto].
  Qed.
  Lemma range_declare env a n : range env n -> range (declare env a (S n)) (S n).
  Proof.
    intros R. assert (R' : range env (S n)) by (eapply env_ok_le; [exact R|lia]). destruct a as [a|]; [|exact R'].
    apply Forall_app. split; [exact R'|]. constructor; [cbn; lia|constructor].
  Qed.
  Lemma wf_node n n' env env' m is : (S n <= n')%nat -> range env' n' -> Forall (fun i => 1 <= i <= n')%nat is ->
    inside (S n) n' -> parented (S n) n' is -> range env n -> node_at d (S n) = Some m -> children m = is ->
    (n <= n')%nat /\ range env' n' /\ (1 <= S n <= n')%nat /\ inside n n' /\ parented n n' [S n].
  Proof.
    intros L R F I P _ E C. split; [lia|]. split; [exact R|]. split; [lia|]. split.
    - intros j m0 c J EJ IC. destruct (Nat.eq_dec j (S n)) as [->|NJ].
      + rewrite E in EJ. inversion EJ; subst. exact (proj1 (Forall_forall _ _) F c IC).
      + exact (I j m0 c ltac:(lia) EJ IC).
    - intros j J. destruct (Nat.eq_dec j (S n)) as [->|NJ]; [left; left; reflexivity|]. right.
      destruct (P j ltac:(lia)) as [Q|(k & m' & K & EK & Q)].
      + exists (S n), m. rewrite C. split; [lia|auto].
      + exists k, m'. split; [lia|auto].
  Qed.

  Lemma denotes_wf :
    (forall env n t i env' n' (D : denotes d env n t i env' n'), Pn env n t i env' n') /\
    (forall env n ts is env' n' (D : denotes_items d env n ts is env' n'), Pi env n ts is env' n') /\
    (forall env n ts is env' n' (D : denotes_pairs d env n ts is env' n'), Pp env n ts is env' n').
  Proof.
    apply denotes_mutual; unfold Pn, Pi, Pp.
    - intros env n a i I R. pose proof (proj1 (Forall_forall _ _) R _ I) as K. cbn in K. split; [lia|]. split; [exact R|]. split; [lia|].
      split; [intros j m c J; lia|intros j J; lia].
    - intros env n a tag v pi qi s F E R.
      apply (wf_node n (S n) env (declare env a (S n)) (mkNode (tag_or_default tag default_scalar_tag) (NScalar v s)) []);
        [lia|apply range_declare; exact R|constructor|intros j m c J; lia|intros j J; lia|exact R|exact E|reflexivity].
    - intros env n a tag im s items ids env' n' F E DI IH R. destruct (IH (range_declare _ a _ R)) as (L & R' & FI & I & P).
      eapply wf_node; eauto.
    - intros env n a tag im s pairs ids env' n' F E DI IH R. destruct (IH (range_declare _ a _ R)) as (L & R' & FI & I & P).
      eapply wf_node; eauto.
    - intros env n R. split; [lia|]. split; [exact R|]. split; [constructor|]. split; [intros j m c J; lia|intros j J; lia].
    - intros env n t i env1 n1 ts is env2 n2 _ IH1 _ IH2 R. destruct (IH1 R) as (L1 & R1 & I1 & N1 & P1). destruct (IH2 R1) as (L2 & R2 & I2 & N2 & P2).
      split; [lia|]. split; [exact R2|]. split; [constructor; [lia|exact I2]|]. split; [exact (inside_trans _ _ _ L2 N1 N2)|].
      exact (parented_trans _ _ _ _ _ L1 P1 P2).
    - intros env n R. split; [lia|]. split; [exact R|]. split; [constructor|]. split; [intros j m c J; lia|intros j J; lia].
    - intros env n k v ki vi env1 n1 env2 n2 ps is env3 n3 _ IH1 _ IH2 _ IH3 R. destruct (IH1 R) as (L1 & R1 & I1 & N1 & P1). destruct (IH2 R1) as (L2 & R2 & I2 & N2 & P2).
      destruct (IH3 R2) as (L3 & R3 & I3 & N3 & P3).
      split; [lia|]. split; [exact R3|]. split; [cbn; repeat constructor; try lia; exact I3|].
      split; [exact (inside_trans _ _ _ L3 (inside_trans _ _ _ L2 N1 N2) N3)|].
      refine (parented_trans _ _ _ [ki] _ L1 P1 _). refine (parented_trans _ _ _ [vi] _ L2 P2 P3).
  Qed.
End wf.

Lemma node_at_range d i n : node_at d i = Some n -> (1 <= i <= length (d_nodes d))%nat.
Proof. destruct i; cbn; [discriminate|]. intros E. assert (i < length (d_nodes d))%nat by (apply nth_error_Some; congruence). lia. Qed.
Lemma node_at_some d i : (1 <= i <= length (d_nodes d))%nat -> exists n, node_at d i = Some n.
Proof. destruct i; [lia|]. intros L. cbn. destruct (nth_error (d_nodes d) i) eqn:E; eauto. apply nth_error_None in E. lia. Qed.
Lemma document_of_ok t d : document_of t d -> doc_ok d.
Proof.
  intros (_ & _ & _ & _ & env & D). destruct (proj1 (denotes_wf d) _ _ _ _ _ _ D (Forall_nil _)) as (L & R & I & N & P).
  split; [apply node_at_some; lia|]. split.
  - intros i n c E C. apply node_at_some. apply (N i n c); auto. pose proof (node_at_range _ _ _ E). lia.
  - intros i n E NE. pose proof (node_at_range _ _ _ E). destruct (P i ltac:(lia)) as [[Q|[]]|(k & m & K & EK & Q)]; [congruence|].
    exists k, m. split; [lia|auto].
Qed.
Lemma loaded_ok fuel input ds l : (4 * length input < fuel)%nat -> load_history fuel input ds l -> Forall doc_ok ds.
Proof.
  intros B H. destruct (load_denotes _ _ _ _ B H) as [->|(es & enc & ts & _ & _ & F)]; [constructor|].
  clear - F. induction F; constructor; eauto using document_of_ok.
Qed.

(** C31 *)
Lemma load_safe fuel input ds l : (4 * length input < fuel)%nat -> load_history fuel input ds l ->
  match load fuel l with LAssertFail | LUB | LOutOfFuel => False | _ => True end.
Proof.
  intros B H. pose proof (load_cases _ _ _ _ (history_between _ _ _ _ B H) B) as C.
  inversion C as [e p' r S EI EP ENC XC| |r S XC]; subst; auto; inversion XC; auto.
Qed.
Lemma end_flag input es e p : history input (es ++ [e]) p -> e_ev e = EStreamEnd -> p_end p = true.
Proof.
  intros H E. destruct (history_snoc _ _ _ _ H) as (q & Hq & Eq). pose proof (history_inv _ _ _ Hq) as I.
  destruct I as [[W|[S _]] _ _ _ _]; [|rewrite (ended_nothing _ S) in Eq; discriminate].
  pose proof (history_end _ _ _ _ H E) as WF. apply history_inv in H. apply well_formed_acc in WF. rewrite (inv_acc _ _ _ H) in WF.
  assert (p_state p = PS_End) by (apply abs_done; congruence).
  pose proof (ParserInv.step_cases q W) as SC. rewrite Eq in SC. cbn in SC. destruct SC as (_ & _ & ->). rewrite H0. reflexivity.
Qed.
(* at the end of the stream: no document, again and again *)
Lemma load_ended fuel input ds l l' : (4 * length input < fuel)%nat -> load_history fuel input ds l -> load fuel l = LNoDocument l' -> load fuel l' = LNoDocument l'.
Proof.
  intros B H E. pose proof (history_between _ _ _ _ B H) as BT. pose proof (load_cases _ _ _ _ BT B) as C. rewrite E in C.
  assert (G : forall p e, (exists es, history input es p) -> parse p = PEvent e (ld_parser l') -> e_ev e = EStreamEnd -> ld_started l' = true -> load fuel l' = LNoDocument l').
  { intros p e (es & Hp) EP EE ST. assert (H' : history input (es ++ [e]) (ld_parser l')) by (econstructor; eauto).
    unfold load. rewrite ST. unfold load_next. rewrite (end_flag _ _ _ _ H' EE). destruct l'; cbn in *; subst; reflexivity. }
  inversion C as [e p' r S EI EP ENC XC| |r S XC]; subst.
  - inversion XC; subst. eapply G; [|eauto|eauto|reflexivity]. exists [e]. apply (H_call input [] (init_parser input) e p'); [constructor|exact EP].
  - inversion XC; subst. destruct BT as [-> ->|es enc ts H0 S0 E0 F0]; [discriminate|]. eapply G; [|eauto|eauto|reflexivity]. eauto.
Qed.

(** events determine the tree *)
Lemma events_nonempty t : exists e r, events_of t = e :: r /\ e <> ESeqEnd /\ e <> EMapEnd.
Proof. destruct t; cbn; do 2 eexists; (split; [reflexivity|]); split; discriminate. Qed.
Lemma events_cancel t : forall u x y, events_of t ++ x = events_of u ++ y -> t = u /\ x = y.
Proof.
  induction t as [a|a tag v pi qi st|a tag im st items IH|a tag im st pairs IH] using tree_induction; intros [b|b tag' v' pi' qi' st'|b tag' im' st' items'|b tag' im' st' pairs'] x y E;
    cbn in E; inversion E; subst; auto.
  - rewrite <- !app_assoc in *. match goal with H : _ = flat_map events_of items' ++ _ |- _ => rename H into Q end. cbn in Q.
    assert (G : items = items' /\ x = y); [|destruct G as (-> & ->); auto]. clear E. revert items' Q.
    induction IH as [|t r T F IH]; intros [|t' r'] Q; cbn in Q.
    + inversion Q; auto.
    + destruct (events_nonempty t') as (e & z & Ee & N1 & N2). rewrite Ee in Q. inversion Q. congruence.
    + destruct (events_nonempty t) as (e & z & Ee & N1 & N2). rewrite Ee in Q. inversion Q. congruence.
    + rewrite <- !app_assoc in Q. destruct (T _ _ _ Q) as (-> & Q'). destruct (IH _ Q') as (-> & ->). auto.
  - rewrite <- !app_assoc in *. match goal with H : _ = flat_map _ pairs' ++ _ |- _ => rename H into Q end. cbn in Q.
    assert (G : pairs = pairs' /\ x = y); [|destruct G as (-> & ->); auto]. clear E. revert pairs' Q.
    induction IH as [|[k v] r [K V] F IH]; intros [|[k' v'] r'] Q; cbn in Q.
    + inversion Q; auto.
    + destruct (events_nonempty k') as (e & z & Ee & N1 & N2). rewrite Ee in Q. inversion Q. congruence.
    + destruct (events_nonempty k) as (e & z & Ee & N1 & N2). rewrite Ee in Q. inversion Q. congruence.
    + cbn in K, V. rewrite <- !app_assoc in Q. destruct (K _ _ _ Q) as (-> & Q'). destruct (V _ _ _ Q') as (-> & Q''). destruct (IH _ Q'') as (-> & ->). auto.
Qed.
Lemma events_inj t u : events_of t = events_of u -> t = u.
Proof. intros E. apply (events_cancel t u [] []). rewrite !app_nil_r. exact E. Qed.

(** C29 *)
Lemma scoped_prefix a b : well_scoped (a ++ b) -> well_scoped a.
Proof. intros W x e y pr E. apply (W x e (y ++ b)). rewrite E, <- app_assoc. reflexivity. Qed.

Lemma reading_next l es q input : reading l es q -> forall r, load_case input l r ->
  (exists p, yields p es q /\ next_case p r) \/ (exists p e p' q', l = init_loader input /\ p = ld_parser l /\ parse p = PEvent e p' /\ parse p = PFail q').
Proof.
  intros [(S & Y)|(S & e & enc & p & EP & EE & Y)] r C; inversion C as [e1 p1 r1 S1 EI EP1 ENC XC|q' b EI EP1|r1 S1 XC]; subst; try congruence.
  - cbn in S. congruence.
  - left. eauto.
  - left. exists p1. split; [|exact XC]. cbn in *. congruence.
Qed.
Lemma reading_next' l es q input r : reading l es q -> load_case input l r -> exists p, yields p es q /\ next_case p r.
Proof.
  intros R C. destruct (reading_next _ _ _ _ R _ C) as [H|(p & e & p' & q' & _ & _ & A & B)]; [exact H|congruence].
Qed.

Lemma not_end_in es i : Forall not_end es -> ~ In (EDocEnd i) es.
Proof. intros F I. exact (proj1 (Forall_forall _ _) F _ I i eq_refl). Qed.
Lemma composer_not_end b e pr : composer_error b e pr -> not_end e.
Proof. intros C i ->. inversion C; subst. discriminate. Qed.
Lemma inside_map es : Forall inside_document es -> Forall not_end (map e_ev es).
Proof. induction 1; cbn; constructor; auto. Qed.

Lemma compose_detected fuel input ds l start es q v tags i : (4 * length input < fuel)%nat -> load_history fuel input ds l ->
  reading l (start :: es) q -> e_ev start = EDocStart v tags i -> Forall inside_document es -> ~ well_scoped (map e_ev es) ->
  exists l' err, load fuel l = LFailed l' /\ p_error (ld_parser l') = Some err /\ (pe_problem err = UndefinedAlias \/ pe_problem err = DuplicateAnchor).
Proof.
  intros B H R ES IN NW. apply inside_map in IN.
  pose proof (load_cases _ _ _ _ (history_between _ _ _ _ B H) B) as C. destruct (reading_next' _ _ _ _ _ R C) as (p & Y & X).
  destruct X as [es1 p' dt d Y1 T D W|e p' EP EE|q' EP|e0 es1 q1 q' v1 ds1 i1 Y1 E0 NE W EP|e0 es1 e q1 err v1 ds1 i1 Y1 E0 NE W CE].
  - exfalso. destruct (yields_comparable _ _ _ _ _ Y Y1) as [(c & E & _)|(c & E & _)].
    + rewrite E in T. cbn in T. inversion T as [[T1 T2]]. rewrite map_app in T2. destruct (prefix_end _ _ _ _ _ IN T2) as (g & G).
      rewrite <- G in W. exact (NW (scoped_prefix _ _ W)).
    + assert (E' : map e_ev (start :: es) = doc_events dt ++ map e_ev c) by (rewrite E, map_app, T; reflexivity).
      cbn in E'. inversion E' as [[E1 E2]]. apply (not_end_in _ (dt_end_implicit dt) IN). rewrite E2. rewrite !in_app_iff. cbn. auto.
  - exfalso. apply yields_inv in Y. destruct Y as (p1 & E1 & _). congruence.
  - exfalso. apply yields_inv in Y. destruct Y as (p1 & E1 & _). congruence.
  - exfalso. destruct (yields_comparable _ _ _ _ _ Y Y1) as [(c & E & _)|(c & E & YC)].
    + inversion E; subst. rewrite map_app in W. exact (NW (scoped_prefix _ _ W)).
    + destruct (yields_failed _ _ _ _ EP YC) as (-> & _). rewrite app_nil_r in E. inversion E; subst. auto.
  - do 2 eexists. split; [reflexivity|]. cbn. split; [reflexivity|]. inversion CE; auto.
Qed.

Lemma compose_accepted fuel input ds l es q dt : (4 * length input < fuel)%nat -> load_history fuel input ds l ->
  reading l es q -> map e_ev es = doc_events dt -> well_scoped (events_of (dt_root dt)) ->
  exists d, load fuel l = LDocument d (mkLoader q true) /\ document_of dt d.
Proof.
  intros B H R ES W.
  pose proof (load_cases _ _ _ _ (history_between _ _ _ _ B H) B) as C. destruct (reading_next' _ _ _ _ _ R C) as (p & Y & X).
  destruct es as [|start es]; [discriminate|]. cbn in ES. inversion ES as [[E0 E1]].
  destruct X as [es1 p' dt1 d Y1 T D W1|e p' EP EE|q' EP|e0 es1 q1 q' v1 ds1 i1 Y1 E0' NE W1 EP|e0 es1 e q1 err v1 ds1 i1 Y1 E0' NE W1 CE].
  - assert (K : forall x y c, doc_events x = doc_events y ++ c -> c = [] /\ x = y).
    { intros x y c E. cbn in E. inversion E as [[Q1 Q2 Q3 Q4]]. rewrite <- app_assoc in Q4. cbn in Q4.
      destruct (split_end _ _ _ _ _ _ (events_not_end _) (events_not_end _) Q4) as (A1 & A2 & A3). split; [auto|].
      destruct x as [a1 a2 a3 a4 a5], y as [b1 b2 b3 b4 b5]; cbn in *; subst. f_equal. apply events_inj. exact A1. }
    destruct (yields_comparable _ _ _ _ _ Y Y1) as [(c & E & YC)|(c & E & YC)].
    + assert (E' : doc_events dt1 = doc_events dt ++ map e_ev c) by (rewrite <- T, E, map_app; cbn; rewrite E0, E1; reflexivity).
      destruct (K _ _ _ E') as (A & ->). destruct c; [|discriminate]. apply yields_inv in YC. subst. exists d. auto.
    + assert (E' : doc_events dt = doc_events dt1 ++ map e_ev c) by (rewrite <- T, <- map_app, <- E; cbn; rewrite E0, E1; reflexivity).
      destruct (K _ _ _ E') as (A & ->). destruct c; [|discriminate]. apply yields_inv in YC. subst. exists d. auto.
  - exfalso. apply yields_inv in Y. destruct Y as (p1 & Ep & _). congruence.
  - exfalso. apply yields_inv in Y. destruct Y as (p1 & Ep & _). congruence.
  - exfalso. destruct (yields_comparable _ _ _ _ _ Y Y1) as [(c & E & _)|(c & E & YC)].
    + inversion E; subst. rewrite map_app, E1 in NE. apply (not_end_in _ (dt_end_implicit dt) NE). rewrite !in_app_iff. cbn. auto.
    + destruct (yields_failed _ _ _ _ EP YC) as (-> & _). rewrite app_nil_r in E. inversion E; subst. rewrite E1 in NE.
      apply (not_end_in _ (dt_end_implicit dt) NE). rewrite !in_app_iff. cbn. auto.
  - exfalso. assert (NE' : Forall not_end (map e_ev (es1 ++ [e]))) by (rewrite map_app; apply Forall_app; split; [exact NE|repeat constructor; eapply composer_not_end; eauto]).
    destruct (yields_comparable _ _ _ _ _ Y Y1) as [(c & E & _)|(c & E & YC)].
    + inversion E as [[E2 E3]]. rewrite E3, map_app, E1 in NE'. apply (not_end_in _ (dt_end_implicit dt) NE'). rewrite !in_app_iff. cbn. auto.
    + inversion E as [[E2 E3]]. rewrite E3 in E1. rewrite map_app in E1. destruct (prefix_end _ _ _ _ _ NE' E1) as (g & G).
      rewrite map_app, <- app_assoc in G. cbn in G. symmetry in G. exact (W _ _ _ _ G CE).
Qed.

Lemma compose_reported fuel input ds l l' : (4 * length input < fuel)%nat -> load_history fuel input ds l -> load fuel l = LFailed l' ->
  (exists p, history input p (ld_parser l) /\ exists es q, yields (ld_parser l) es q /\ parse q = PFail (ld_parser l')) \/
  (exists start es e q err v tags i, reading l (start :: es ++ [e]) q /\ e_ev start = EDocStart v tags i /\
     well_scoped (map e_ev es) /\ composer_error (map e_ev es) (e_ev e) (pe_problem err) /\ p_error (ld_parser l') = Some err).
Proof.
  intros B H E. pose proof (history_between _ _ _ _ B H) as BT. pose proof (load_cases _ _ _ _ BT B) as C. rewrite E in C.
  assert (HP : exists es, history input es (ld_parser l)) by (destruct BT as [-> ->|es enc ts H0 S0 E0 F0]; [exists []; constructor|eauto]).
  destruct HP as (esp & HP).
  inversion C as [e p' r S EI EP ENC XC|q' b EI EP|r S XC]; subst.
  - inversion XC as [| |q' EP1|e0 es1 q1 q' v1 ds1 i1 Y1 E0' NE W1 EP1|e0 es1 e1 q1 err v1 ds1 i1 Y1 E0' NE W1 CE]; subst.
    + left. exists esp. split; [exact HP|]. exists [e], p'. split; [|exact EP1]. eapply yields_cons; [exact EP|constructor].
    + left. exists esp. split; [exact HP|]. exists (e :: e0 :: es1), q1. split; [|exact EP1]. eapply yields_cons; eauto.
    + right. destruct ENC as (enc & EE). exists e0, es1, e1, q1, err, v1, ds1, i1. split; [|auto].
      right. split; [reflexivity|]. exists e, enc, p'. auto.
  - left. exists esp. split; [exact HP|]. exists [], (ld_parser (init_loader input)). split; [constructor|exact EP].
  - inversion XC as [| |q' EP1|e0 es1 q1 q' v1 ds1 i1 Y1 E0' NE W1 EP1|e0 es1 e1 q1 err v1 ds1 i1 Y1 E0' NE W1 CE]; subst.
    + left. exists esp. split; [exact HP|]. exists [], (ld_parser l). split; [constructor|exact EP1].
    + left. exists esp. split; [exact HP|]. exists (e0 :: es1), q1. auto.
    + right. exists e0, es1, e1, q1, err, v1, ds1, i1. split; [|auto]. left. auto.
Qed.
