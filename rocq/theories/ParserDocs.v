(* Completeness of parser.c: documents and streams. *)
From Verif Require Import Base ReaderModel Types TreeSpec GrammarSpec EventAcc ParserModel ParserInv ParserProofs ParserSound ParserComplete.

Lemma bound_false tags h : ~ In h (map fst tags) -> bound tags h = false.
Proof.
  intros N. unfold bound. destruct (existsb _ tags) eqn:E; [|reflexivity]. exfalso. apply N.
  apply existsb_exists in E. destruct E as (x & I & Q). destruct (str_eqb_spec h (fst x)); [subst; apply in_map; auto|discriminate].
Qed.

Lemma directive_loop_complete tds : forall fuel ver acc p rest t r,
  p_in p = tds ++ rest -> rest = t :: r -> is_directive (t_tok t) = false -> (length tds < length fuel)%nat ->
  p_end p = false -> p_tags p = acc -> NoDup (map fst (acc ++ tag_directives (map t_tok tds))) ->
  Forall (fun t => is_directive t = true) (map t_tok tds) ->
  (match ver with Some _ => versions (map t_tok tds) = [] | None => True end) ->
  forall v', versions (map t_tok tds) = match v' with None => [] | Some v => [v] end ->
  match v' with None => True | Some v => version_ok v end ->
  directive_loop fuel ver acc p =
    DirsOk (match ver with Some v => Some v | None => v' end) (acc ++ tag_directives (map t_tok tds))
      (mkParser rest false (p_error p) (p_state p) (p_states p) (p_marks p) (acc ++ tag_directives (map t_tok tds))).
Proof.
  induction tds as [|td tds IH]; intros fuel ver acc p rest t r HI HR HD HL HE HT ND HF HV v' Hv' Hok.
  - cbn in *. rewrite app_nil_r. destruct fuel as [|f fuel]; [cbn in HL; lia|]. cbn.
    rewrite HI, HR. replace v' with (@None version) by (destruct v'; [discriminate|reflexivity]).
    replace (match ver with Some v => Some v | None => None end) with ver by (destruct ver; reflexivity).
    rewrite <- HR. destruct p; cbn in *. subst. destruct (t_tok t); try discriminate; reflexivity.
  - destruct fuel as [|f fuel]; [cbn in HL; lia|]. cbn [directive_loop]. rewrite HI. cbn [app].
    cbn [map] in *. inversion HF as [|? ? HD1 HF1]; subst.
    destruct (t_tok td) eqn:Et; try discriminate HD1.
    + (* version *) cbn [versions flat_map app] in *.
      destruct ver; [discriminate|]. destruct v' as [v'|]; [|discriminate]. inversion Hv' as [[Hv'1 Hv'2]].
      assert (Q : negb (major =? 1) || (negb (minor =? 1) && negb (minor =? 2)) = false).
      { destruct Hok as [Hok|Hok]; rewrite Hok in Hv'1; inversion Hv'1; reflexivity. }
      rewrite Q. change (tag_directives (TVersion major minor :: map t_tok tds)) with (tag_directives (map t_tok tds)) in *.
      erewrite (IH fuel (Some (major, minor)) (p_tags p) (skip p) (t :: r) t r); eauto; try (unfold skip; rewrite HI; reflexivity).
      * cbn in HL. lia.
      * unfold skip. rewrite HI. cbn. rewrite Et. reflexivity.
      * instantiate (1 := None). exact Hv'2.
      * exact I.
    + (* tag *) change (versions (TTagDirective handle prefix :: map t_tok tds)) with (versions (map t_tok tds)) in *.
      change (tag_directives (TTagDirective handle prefix :: map t_tok tds)) with ((handle, prefix) :: tag_directives (map t_tok tds)) in *.
      assert (NB : bound (p_tags p) handle = false).
      { apply bound_false. rewrite map_app in ND. cbn in ND. apply NoDup_remove_2 in ND. intros I. apply ND. apply in_or_app. auto. }
      unfold append_tag_directive. cbn [fst]. rewrite NB.
      match goal with |- directive_loop fuel ver ?A ?P = _ => erewrite (IH fuel ver A P (t :: r) t r) end; eauto;
        try (unfold skip; cbn; rewrite HI; reflexivity).
      * rewrite <- app_assoc. cbn. unfold skip. cbn. rewrite HI. reflexivity.
      * cbn in HL. lia.
      * unfold skip. cbn. rewrite HI. cbn. rewrite Et. reflexivity.
      * rewrite <- app_assoc. exact ND.
Qed.

Lemma nodup_app {A} (l m : list A) : NoDup l -> NoDup m -> (forall a, In a l -> ~ In a m) -> NoDup (l ++ m).
Proof.
  induction 1 as [|a l NI ND IH]; cbn; intros M D; auto. constructor; auto.
  intros I. apply in_app_iff in I as [I|I]; [auto|]. apply (D a); cbn; auto.
Qed.
Lemma env_nodup dirs : NoDup (map fst dirs) -> NoDup (map fst (env_of dirs)).
Proof.
  intros ND. unfold env_of, default_env. cbn [filter fst].
  assert (B : forall h, binds dirs h = false -> ~ In h (map fst dirs)).
  { intros h H I. apply in_map_iff in I. destruct I as (x & <- & I). unfold binds in H.
    assert (existsb (fun d => str_eqb (fst d) (fst x)) dirs = true); [|congruence].
    apply existsb_exists. exists x. split; auto. apply str_eqb_refl. }
  rewrite map_app.
  destruct (binds dirs [33]) eqn:B1; destruct (binds dirs [33; 33]) eqn:B2; cbn [negb map fst]; rewrite ?app_nil_r; auto.
  - apply nodup_app; auto. { repeat constructor; auto. } intros a I [<-|[]]. first [exact (B _ B1 I)|exact (B _ B2 I)].
  - apply nodup_app; auto. { repeat constructor; auto. } intros a I [<-|[]]. first [exact (B _ B1 I)|exact (B _ B2 I)].
  - apply nodup_app; auto. { repeat constructor; cbn; intuition discriminate. } intros a I [<-|[<-|[]]]; first [exact (B _ B1 I)|exact (B _ B2 I)].
Qed.

(* between documents *)
Definition between (p : parser) (l : list token) : Prop :=
  ready p /\ p_states p = [] /\ p_marks p = [] /\ p_tags p = [] /\
  ((p_state p = PS_ImplicitDocStart /\ p_in p = l) \/
   (p_state p = PS_DocStart /\ exists ends, Forall (fun t => t_tok t = TDocEnd) ends /\ p_in p = ends ++ l)).

Lemma skip_ends ends : forall p l fuel, Forall (fun t => t_tok t = TDocEnd) ends -> p_in p = ends ++ l -> (exists t r, l = t :: r /\ t_tok t <> TDocEnd) ->
  (length ends < length fuel)%nat -> p_end p = false ->
  skip_doc_ends fuel p = mkParser l false (p_error p) (p_state p) (p_states p) (p_marks p) (p_tags p).
Proof.
  induction ends as [|d ends IH]; intros p l fuel F E HN HL HE; (destruct fuel as [|f fuel]; [cbn in HL; lia|]); cbn.
  - cbn in E. destruct HN as (t & r & -> & N). rewrite E. destruct p; cbn in *; subst.
    destruct (t_tok t); try congruence; reflexivity.
  - inversion F; subst. rewrite E. cbn. rewrite H1. rewrite (IH (skip p) l); auto.
    + unfold skip. rewrite E. reflexivity.
    + unfold skip. rewrite E. reflexivity.
    + cbn in HL. lia.
    + unfold skip. rewrite E. cbn. rewrite H1. reflexivity.
Qed.

(* the start of a document, whatever DOCUMENT-END tokens are left over *)
Lemma between_start p l t r : between p l -> l = t :: r -> t_tok t <> TDocEnd ->
  exists (s : pstate) (imp : bool), let q := mkParser l false None s [] [] [] in
  parse p = parse_document_start q imp /\ s = (if imp then PS_ImplicitDocStart else PS_DocStart) /\ (p_state p = PS_ImplicitDocStart -> imp = true).
Proof.
  intros ([R1 R2] & A & B & C & D) HL NE. destruct p as [tin en er st ss ms tg]; cbn in *. subst en er ss ms tg.
  destruct D as [[-> ->]|(-> & ends & F & ->)].
  - exists PS_ImplicitDocStart, true. split; [|auto]. rewrite parse_ready; [reflexivity|split; reflexivity|reflexivity].
  - exists PS_DocStart, false. split; [|split; [auto|discriminate]]. rewrite parse_ready; [|split; reflexivity|reflexivity].
    unfold state_machine. cbn [p_state]. unfold parse_document_start.
    cbn [p_in]. subst l. 
    rewrite (skip_ends ends _ (t :: r)); auto.
    + unfold peek at 1. cbn [p_in]. destruct (ends ++ t :: r) eqn:E; [destruct ends; discriminate|].
      unfold peek at 3. cbn [p_in]. cbn [p_error p_state p_states p_marks p_tags].
      rewrite (skip_ends [] _ (t :: r)); auto; cbn; eauto. lia.
    + eauto.
    + rewrite app_length. cbn. lia.
Qed.

Lemma explicit_start p tds td l ds v dirs : between p (tds ++ td :: l) -> map t_tok tds = ds -> t_tok td = TDocStart -> directives ds v dirs ->
  exists e p1, parse p = PEvent e p1 /\ e_ev e = EDocStart v dirs false /\
    p1 = mkParser l false None PS_DocContent [PS_DocEnd] [] (env_of dirs).
Proof.
  intros HB HD HT DIR.
  assert (H0 : exists t r, tds ++ td :: l = t :: r /\ starts_explicit (t_tok t) = true).
  { destruct tds as [|t0 tds]; cbn.
    - exists td, l. rewrite HT. auto.
    - exists t0, (tds ++ td :: l). split; auto. destruct DIR as (F & _). rewrite <- HD in F. cbn in F. inversion F; subst.
      destruct (t_tok t0); try discriminate; reflexivity. }
  destruct H0 as (t & r & EL & SE).
  destruct (between_start p _ t r HB EL) as (s & imp & EP & Es & _). { intros Q. rewrite Q in SE. discriminate. }
  rewrite EP. unfold parse_document_start. set (q := mkParser _ _ _ _ _ _ _).
  assert (EQ : (if imp then q else skip_doc_ends (p_in q) q) = q).
  { destruct imp; [reflexivity|]. rewrite (skip_ends [] q (tds ++ td :: l)); auto; cbn.
    - exists t, r. split; auto. intros Q. rewrite Q in SE. discriminate.
    - rewrite app_length. cbn. lia. }
  unfold peek at 1. cbv zeta. rewrite EQ. 
  assert (EI : p_in q = t :: r) by (subst q; cbn; auto). rewrite EI. unfold peek at 1. rewrite EI.
  rewrite SE. rewrite andb_false_r. cbn [andb].
  assert (NS : is_stream_end (t_tok t) = false) by (destruct (t_tok t); try discriminate; reflexivity). rewrite NS. cbn [negb].
  unfold process_directives.
  destruct DIR as (D1 & D2 & D3 & D4 & D5).
  rewrite (directive_loop_complete tds _ None [] q (td :: l) td l) with (v' := v); subst ds; auto.
  - cbn [app p_tags p_error p_state p_states p_marks p_in p_end]. unfold peek, set_tags. cbn [p_in]. rewrite HT.
    rewrite add_defaults_env, <- D4. unfold skip. cbn [p_in set_state push_state]. rewrite HT. eexists. eexists. split; [reflexivity|]. cbn. auto.
  - rewrite HT. reflexivity.
  - cbn [p_in q]. rewrite app_length. cbn. lia.
  - cbn. rewrite <- D4. auto.
Qed.

Definition starts_node (t : tok) : bool := starts Block t.
Lemma implicit_start p l t r : between p l -> p_state p = PS_ImplicitDocStart -> l = t :: r -> starts Block (t_tok t) = true ->
  exists e p1, parse p = PEvent e p1 /\ e_ev e = EDocStart None [] true /\
    p1 = mkParser l false None PS_BlockNode [PS_DocEnd] [] (env_of []).
Proof.
  intros HB HS HL ST.
  destruct (between_start p _ t r HB HL) as (s & imp & EP & Es & HI). { intros Q. rewrite Q in ST. discriminate. }
  specialize (HI HS). subst imp. rewrite EP. unfold parse_document_start. set (q := mkParser _ _ _ _ _ _ _).
  assert (EI : p_in q = t :: r) by (subst q; cbn; auto).
  unfold peek at 1. rewrite EI. cbv zeta. unfold peek at 1. rewrite EI.
  assert (NS : is_stream_end (t_tok t) = false) by (destruct (t_tok t); try discriminate; reflexivity).
  assert (NX : starts_explicit (t_tok t) = false) by (destruct (t_tok t); try discriminate; reflexivity).
  rewrite NS, NX. cbn [andb negb].
  unfold process_directives.
  rewrite (directive_loop_complete [] _ None [] q l t r) with (v' := None); auto.
  - eexists. eexists. split; [reflexivity|]. cbn [e_ev]. split; [reflexivity|].
    cbn [app map tag_directives flat_map p_tags set_tags]. rewrite add_defaults_env. reflexivity.
  - destruct (t_tok t); try discriminate; reflexivity.
  - cbn [p_in q]. rewrite HL. cbn. lia.
  - constructor.
  - constructor.
Qed.

Definition after_doc (t : tok) : bool := match t with TVersion _ _ | TTagDirective _ _ | TDocStart | TStreamEnd => true | _ => false end.
(* the end of a document *)
Lemma document_end p ends rest tg : p = mkParser (ends ++ rest) false None PS_DocEnd [] [] tg -> Forall (fun t => t_tok t = TDocEnd) ends ->
  (exists t r, rest = t :: r /\ after_doc (t_tok t) = true) ->
  exists p', runs p [EDocEnd (no_end (length ends))] p' /\ between p' rest /\ p_state p' = PS_DocStart.
Proof.
  intros -> F (t & r & -> & AD). 
  assert (BT : forall ends, Forall (fun t => t_tok t = TDocEnd) ends -> between (mkParser (ends ++ t :: r) false None PS_DocStart [] [] []) (t :: r)).
  { intros ends' F'. repeat split; auto. cbn. right. split; auto. eauto. }
  destruct ends as [|d ends]; cbn [app length no_end].
  - exists (mkParser (t :: r) false None PS_DocStart [] [] []). split; [|split; [apply (BT []); constructor|reflexivity]].
    apply runs_emits; [split; reflexivity|reflexivity|].
    unfold state_machine. cbn [p_state]. unfold parse_document_end, peek. cbn [p_in].
    destruct (t_tok t); try discriminate AD; apply (emits_one (mkEvent (EDocEnd true) _ _)).
  - inversion F; subst. exists (mkParser (ends ++ t :: r) false None PS_DocStart [] [] []). split; [|split; [apply BT; auto|reflexivity]].
    apply runs_emits; [split; reflexivity|reflexivity|].
    unfold state_machine. cbn [p_state]. unfold parse_document_end, peek. cbn [p_in]. rewrite H1.
    unfold skip. cbn. rewrite H1. apply (emits_one (mkEvent (EDocEnd false) _ _)).
Qed.

Lemma repeat_ends l n : map t_tok l = repeat TDocEnd n -> Forall (fun t => t_tok t = TDocEnd) l /\ length l = n.
Proof.
  intros H. split.
  - apply Forall_forall. intros t I. apply (in_map t_tok) in I. rewrite H in I. apply repeat_spec in I. auto.
  - rewrite <- (map_length t_tok), H. apply repeat_length.
Qed.

Lemma follow_after n ends rest t r : map t_tok ends = repeat TDocEnd n -> rest = t :: r -> after_doc (t_tok t) = true ->
  exists t r, ends ++ rest = t :: r /\ (after_doc (t_tok t) = true \/ t_tok t = TDocEnd).
Proof.
  intros H -> A. destruct ends as [|d ends]; cbn; [eauto|]. destruct n; inversion H. eauto.
Qed.

Lemma root_complete ts x q ends rest dirs : NoDup (map fst dirs) -> node implemented (env_of dirs) Block ts x ->
  at_pos (env_of dirs) q ts (ends ++ rest) -> p_states q = [PS_DocEnd] -> p_marks q = [] -> 
  (exists t r, ends ++ rest = t :: r /\ (after_doc (t_tok t) = true \/ t_tok t = TDocEnd)) ->
  exists p', emits (parse_node q true false) (events_of x) p' /\ p' = mkParser (ends ++ rest) false None PS_DocEnd [] [] (env_of dirs).
Proof.
  intros ND N A S M (t & r & E & FA).
  destruct (node_complete (env_of dirs) (env_nodup _ ND) Block ts x N q (ends ++ rest) PS_DocEnd [] A S) as (p' & R & AF).
  { exists t, r. split; auto. destruct FA as [FA|FA]; destruct (t_tok t); try discriminate; reflexivity. }
  exists p'. split; auto. destruct AF as (A1 & A2 & A3 & A4 & [A5 A6] & A7). destruct p'; cbn in *. congruence.
Qed.

Lemma explicit_complete ts d : explicit_document implemented ts d -> forall p tin rest, between p (tin ++ rest) -> map t_tok tin = ts -> Forall shallow tin ->
  (exists t r, rest = t :: r /\ after_doc (t_tok t) = true) ->
  exists p', runs p (doc_events d) p' /\ between p' rest /\ p_state p' = PS_DocStart.
Proof.
  intros [ds v dirs ts1 x n DIR O] p tin rest HB HM SH HR.
  apply map_eq_app in HM. destruct HM as (tds & t2 & -> & Eds & H2).
  destruct t2 as [|td t2]; [discriminate|]. inversion H2 as [[Etd H3]].
  apply map_eq_app in H3. destruct H3 as (tn & ends & -> & Etn & Eends).
  apply Forall_app in SH as [_ SH]. inversion SH as [|? ? SH1 SH2]; subst. apply Forall_app in SH2 as [SH2 _].
  rewrite <- app_assoc in HB. cbn [app] in HB.
  destruct (explicit_start p tds td ((tn ++ ends) ++ rest) _ v dirs HB eq_refl Etd DIR) as (e & p1 & EP & EV & E1).
  destruct (repeat_ends _ _ Eends) as [FE LE].
  assert (FOL := HR). destruct FOL as (t & r & ER & AD). pose proof (follow_after _ _ _ _ _ Eends ER AD) as FA. clear t r ER AD.
  destruct (document_end _ ends rest (env_of dirs) eq_refl FE HR) as (p3 & R3 & B3 & S3).
  assert (ND : NoDup (map fst dirs)) by apply DIR.
  assert (exists p2, runs p1 (events_of x) p2 /\ p2 = mkParser (ends ++ rest) false None PS_DocEnd [] [] (env_of dirs)) as (p2 & R2 & E2).
  { inversion O; subst.
    - destruct tn; [|discriminate]. cbn [app]. eexists. split; [|reflexivity].
      apply runs_emits; [split; reflexivity|reflexivity|]. unfold state_machine. cbn [p_state]. unfold parse_document_content, peek. cbn [p_in].
      destruct FA as (t1 & r1 & E & [FA|FA]); rewrite E; destruct (t_tok t1); try discriminate FA; apply (emits_one (mkEvent empty_scalar _ _)).
    - assert (AT : at_pos (env_of dirs) (mkParser ((tn ++ ends) ++ rest) false None PS_DocContent [PS_DocEnd] [] (env_of dirs)) (map t_tok tn) (ends ++ rest)).
      { exists tn. rewrite app_assoc. repeat split; auto. }
      destruct (root_complete _ x _ ends rest dirs ND H AT eq_refl eq_refl FA) as (p2 & R2 & E2).
      exists p2. split; auto. apply runs_emits; [split; reflexivity|reflexivity|]. unfold state_machine. cbn [p_state].
      unfold parse_document_content, peek. cbn [p_in].
      destruct (node_starts _ _ _ _ H) as (h & r1 & Eh & SH').
      destruct tn as [|t1 tn]; [discriminate|]. inversion Eh. cbn [app]. cbn [app] in R2. rewrite H1. destruct h; try discriminate SH'; exact R2. }
  exists p3. split; [|auto]. unfold doc_events. cbn [dt_version dt_tags dt_start_implicit dt_root dt_end_implicit].
  rewrite <- EV. eapply Runs_cons; [exact EP|]. eapply runs_app; [exact R2|]. subst p2. rewrite <- LE. exact R3.
Qed.

Lemma implicit_complete ts d : implicit_document implemented ts d -> forall p tin rest, between p (tin ++ rest) -> p_state p = PS_ImplicitDocStart ->
  map t_tok tin = ts -> Forall shallow tin ->
  (exists t r, rest = t :: r /\ after_doc (t_tok t) = true) ->
  exists p', runs p (doc_events d) p' /\ between p' rest /\ p_state p' = PS_DocStart.
Proof.
  intros [ts1 x n N] p tin rest HB HS HM SH HR.
  apply map_eq_app in HM. destruct HM as (tn & ends & -> & Etn & Eends).
  apply Forall_app in SH as [SH2 _]. rewrite <- app_assoc in HB.
  destruct (node_starts _ _ _ _ N) as (h & r1 & Eh & SH').
  assert (H0 : exists t r, tn ++ ends ++ rest = t :: r /\ starts Block (t_tok t) = true).
  { rewrite <- Etn in Eh. destruct tn as [|t tn]; inversion Eh as [[Eh1 Eh2]]. cbn [app]. exists t, (tn ++ ends ++ rest). split; [reflexivity|]. rewrite Eh1. exact SH'. }
  destruct H0 as (t0 & r0 & E0 & ST0).
  destruct (implicit_start p _ t0 r0 HB HS E0 ST0) as (e & p1 & EP & EV & E1).
  destruct (repeat_ends _ _ Eends) as [FE LE].
  assert (FOL := HR). destruct FOL as (t & r & ER & AD). pose proof (follow_after _ _ _ _ _ Eends ER AD) as FA. clear t r ER AD.
  destruct (document_end _ ends rest (env_of []) eq_refl FE HR) as (p3 & R3 & B3 & S3).
  assert (AT : at_pos (env_of []) p1 ts1 (ends ++ rest)).
  { subst p1. exists tn. repeat split; auto. }
  destruct (root_complete ts1 x p1 ends rest [] (NoDup_nil _) N AT) as (p2 & R2 & E2); try (subst p1; reflexivity); auto.
  exists p3. split; [|auto]. unfold doc_events. cbn [dt_version dt_tags dt_start_implicit dt_root dt_end_implicit].
  rewrite <- EV. eapply Runs_cons; [exact EP|]. eapply runs_app; [|subst p2; rewrite <- LE; exact R3].
  subst p1. apply runs_emits; [split; reflexivity|reflexivity|]. exact R2.
Qed.

Lemma explicit_head ts d : explicit_document implemented ts d -> exists h r, ts = h :: r /\ after_doc h = true.
Proof.
  intros [ds v dirs ts1 x n DIR O]. destruct ds as [|h ds]; cbn; [do 2 eexists; split; reflexivity|].
  do 2 eexists. split; [reflexivity|]. destruct DIR as (F & _). inversion F; subst. destruct h; try discriminate; reflexivity.
Qed.
Lemma docs_head ts ds (rest : list token) mid : explicit_documents implemented ts ds -> map t_tok mid = ts ++ [TStreamEnd] -> 
  exists t r, mid ++ rest = t :: r /\ after_doc (t_tok t) = true.
Proof.
  intros D M. assert (exists h r, ts ++ [TStreamEnd] = h :: r /\ after_doc h = true) as (h & r & E & A).
  { inversion D; subst; cbn; [do 2 eexists; split; reflexivity|]. apply explicit_head in H. destruct H as (h & r & -> & A). cbn. eauto. }
  rewrite E in M. destruct mid as [|t mid]; inversion M. subst. cbn. eauto.
Qed.
Lemma stream_end_complete p t rest : between p (t :: rest) -> t_tok t = TStreamEnd -> exists p', runs p [EStreamEnd] p' /\ parse p' = PNothing p'.
Proof.
  intros HB HT. destruct (between_start p _ t rest HB eq_refl) as (s & imp & EP & Es & _). { congruence. }
  cbv zeta in EP. exists (mkParser rest true None PS_End [] [] []). split; [|reflexivity].
  rewrite <- (app_nil_r [EStreamEnd]). cbn [app].
  assert (Q : parse p = PEvent (mkEvent EStreamEnd (t_start t) (t_end t)) (mkParser rest true None PS_End [] [] [])).
  { rewrite EP. unfold parse_document_start, peek. cbn [p_in].
    assert (E : (if imp then mkParser (t :: rest) false None s [] [] [] else skip_doc_ends (t :: rest) (mkParser (t :: rest) false None s [] [] [])) = mkParser (t :: rest) false None s [] [] []).
    { destruct imp; [reflexivity|]. cbn. rewrite HT. reflexivity. }
    rewrite E. cbn [p_in]. rewrite HT. cbn. rewrite andb_false_r. unfold skip. cbn. rewrite HT. reflexivity. }
  apply (Runs_cons p _ _ [] _ Q). constructor.
Qed.
Lemma documents_complete ts ds : explicit_documents implemented ts ds -> forall p tin rest, between p (tin ++ rest) ->
  map t_tok tin = ts ++ [TStreamEnd] -> Forall shallow tin ->
  exists p', runs p (flat_map doc_events ds ++ [EStreamEnd]) p' /\ parse p' = PNothing p'.
Proof.
  induction 1 as [|ts x rs xs D DS IH]; intros p tin rest HB HM SH.
  - cbn in *. destruct tin as [|t tin]; inversion HM. destruct tin; [|discriminate]. eapply stream_end_complete; eauto.
  - rewrite <- app_assoc in HM. apply map_eq_app in HM. destruct HM as (t1 & t2 & -> & E1 & E2).
    apply Forall_app in SH as [SH1 SH2]. rewrite <- app_assoc in HB.
    destruct (explicit_complete _ _ D p t1 (t2 ++ rest) HB E1 SH1) as (p1 & R1 & B1 & _).
    { eapply docs_head; eauto. }
    destruct (IH p1 t2 rest B1 E2 SH2) as (p2 & R2 & N2).
    exists p2. split; auto. cbn [flat_map]. rewrite <- app_assoc. eapply runs_app; eauto.
Qed.

Theorem stream_complete tin rest s : stream implemented (map t_tok tin) s -> Forall shallow tin ->
  exists p', runs (init_parser (tin ++ rest)) (stream_events s) p' /\ parse p' = PNothing p'.
Proof.
  intros ST SH. remember (map t_tok tin) as ts eqn:HM. symmetry in HM.
  assert (S1 : forall t r, t_tok t = TStreamStart (st_encoding s) -> tin = t :: r -> exists e, e_ev e = EStreamStart (st_encoding s) /\
    parse (init_parser (tin ++ rest)) = PEvent e (mkParser (r ++ rest) false None PS_ImplicitDocStart [] [] [])).
  { intros t r Ht ->. exists (mkEvent (EStreamStart (st_encoding s)) (t_start t) (t_start t)). split; [reflexivity|].
    unfold parse, init_parser. cbn. unfold parse_stream_start, peek. cbn [p_in]. cbn [app]. rewrite Ht. unfold skip. cbn [p_in set_state]. rewrite ?Ht. reflexivity. }
  inversion ST as [e0 ts0 docs DS|e0 is i ts0 docs IMP DS]; subst s; rewrite <- HM in *; destruct tin as [|t0 tin]; try discriminate; match goal with K : _ = map t_tok (_ :: _) |- _ => inversion K as [[Ht0 HM']]; clear K end; symmetry in Ht0; clear HM; rename HM' into HM; cbn [st_encoding st_docs] in *.
  - destruct (S1 t0 tin Ht0 eq_refl) as (e & EV & P1).
    destruct (documents_complete _ _ DS (mkParser (tin ++ rest) false None PS_ImplicitDocStart [] [] []) tin rest) as (p' & R & N); auto.
    { repeat split; auto. } { inversion SH; auto. }
    exists p'. split; auto. unfold stream_events. cbn [st_encoding st_docs]. rewrite <- EV. eapply Runs_cons; eauto.
  - destruct (S1 t0 tin Ht0 eq_refl) as (e & EV & P1).
    symmetry in HM. apply map_eq_app in HM. destruct HM as (t1 & t2 & -> & E1 & E2).
    clear S1. inversion SH as [|? ? _ SH']; subst. apply Forall_app in SH' as [SH1 SH2].
    destruct (implicit_complete _ _ IMP (mkParser ((t1 ++ t2) ++ rest) false None PS_ImplicitDocStart [] [] []) t1 (t2 ++ rest)) as (p1 & R1 & B1 & _); auto.
    { repeat split; auto. left. cbn. rewrite app_assoc. auto. } { eapply docs_head; eauto. }
    destruct (documents_complete _ _ DS p1 t2 rest) as (p' & R & N); auto.
    exists p'. split; auto. unfold stream_events. cbn [st_encoding st_docs flat_map]. rewrite <- EV, <- (app_assoc (doc_events i)). eapply Runs_cons; eauto.
    eapply runs_app; eauto.
Qed.

Lemma runs_parse_all p es p' : runs p es p' -> parse p' = PNothing p' -> forall n, (length es < n)%nat ->
  exists evs, parse_all n p = (evs, Parsed) /\ map e_ev evs = es.
Proof.
  induction 1 as [p|p e p1 es p2 H R IH]; intros N n L; (destruct n as [|n]; [cbn in L; lia|]); cbn.
  - rewrite N. exists []. auto.
  - rewrite H. destruct (IH N n) as (evs & E & M); [cbn in L; lia|]. rewrite E. exists (e :: evs). cbn. rewrite M. auto.
Qed.
