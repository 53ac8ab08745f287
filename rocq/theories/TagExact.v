(* Tags that are not read back. *)
From Verif Require Import Base ReaderModel Utf8Spec Utf8Lemmas CharSpec Types CursorModel ScanModel CursorProofs ScanProofs PlanFree FullRun WriterModel WriterSpec PenModel EscapeRun TagRun PenText EmitModel EmitSpec RoundSpec ParserModel TagTrip.
Import CursorModel ScanModel.

Definition tag_stop (flow : bool) (rest : list N) : bool := is_blankz (nth 0 rest 0) || (flow && (nth 0 rest 0 =? 0x2C)).
Lemma stop_follow flow rest : tag_stop flow rest = true <-> tag_follow flow rest.
Proof. unfold tag_stop, tag_follow. destruct (is_blankz (nth 0 rest 0)); cbn [orb]; [split; auto|]. destruct flow; cbn [andb]; [rewrite N.eqb_eq|]; intuition congruence. Qed.
Lemma stop_end {B} (flow : bool) rest m (k : bool -> cm B) :
  bind (check 0 is_blankz) (fun z => bind (if z then ret true else andc (ret flow) (check 0 (eqc 0x2C))) k) (fc rest m) = k (tag_stop flow rest) (fc rest m).
Proof.
  rewrite r_check0. unfold tag_stop. destruct (is_blankz (nth 0 rest 0)); cbn [orb]; [reflexivity|].
  rewrite r_and, r_ret. destruct flow; cbn [andb]; [|reflexivity]. rewrite r_check0. reflexivity.
Qed.
(* a suffix that stops before a character that belongs to no suffix *)
Lemma scan_tag_stops (flow : bool) h x rest m : tag_fits (Some h) x -> tag_stop flow rest = false ->
  uri_class false (nth 0 rest 0) = false -> is_alpha (nth 0 rest 0) = false -> nth 0 rest 0 <> 0x21 -> nth 0 rest 0 <> 0x3C ->
  exists e, scan_tag flow (fc (tag_text (Some h) x ++ rest) m) = CErr e.
Proof.
  intros T R R1 R2 R3 R4. unfold scan_tag. rewrite r_mark, r_cache.
  destruct T as [F [(name & -> & Fn & Nx)| ->]].
  - cbn [tag_text]. rewrite <- app_assoc. cbn [app]. rewrite <- (app_assoc name). cbn [app].
    rewrite (r_check 1); [|cbn [length]; rewrite app_length; cbn; lia|reflexivity]. cbn [nth].
    assert (E : eqc 0x3C (nth 0 (name ++ 0x21 :: flat_map tag_char x ++ rest) 0) = false).
    { destruct name as [|c name]; [reflexivity|]. inversion Fn as [|? ? Fc _]; subst. cbn [app nth]. unfold eqc. apply N.eqb_neq. intros ->. discriminate Fc. }
    rewrite E. cbv iota. rewrite r_bind. unfold bind at 1. rewrite (handle_long false m name (flat_map tag_char x ++ rest) m Fn).
    replace (is_handle (0x21 :: name ++ [0x21])) with true.
    2:{ unfold is_handle. rewrite app_comm_cons, last_last. destruct (name ++ [0x21]) eqn:Z; [destruct name; discriminate|]. reflexivity. }
    rewrite r_bind. unfold bind at 1. rewrite (uri_run false [] x rest m _ F R1 (Forall_nil _) (or_intror Nx)). rewrite r_ret, r_cache, stop_end, R. cbn [negb]. eexists. reflexivity.
  - cbn [tag_text app]. destruct (split_alpha x) as (a & y & -> & Fa & Ny). rewrite flat_map_app, (alpha_chars _ Fa), <- app_assoc. apply Forall_app in F as [Fa' Fy].
    destruct (tag_head y rest Ny) as (Y1 & Y2 & Y3); [auto|].
    assert (E : (1 <= length (0x21%N :: a ++ flat_map tag_char y ++ rest))%nat) by (cbn; lia).
    rewrite (r_check 1); [|exact E|reflexivity]. cbn [nth].
    assert (E2 : eqc 0x3C (nth 0 (a ++ flat_map tag_char y ++ rest) 0) = false).
    { apply N.eqb_neq. destruct a as [|c a]; [exact Y3|]. inversion Fa as [|? ? Fc _]; subst. cbn [app nth]. intros ->. discriminate Fc. }
    rewrite E2. cbv iota. rewrite r_bind. unfold bind at 1. rewrite (handle_short false m a _ m Fa Y1 Y2) by discriminate.
    replace (is_handle (0x21 :: a)) with false.
    2:{ unfold is_handle. destruct a as [|c a] using rev_ind; [reflexivity|]. clear IHa. rewrite app_comm_cons, last_last. apply Forall_app in Fa as [_ Fc]. inversion Fc as [|? ? K _]; subst. destruct (a ++ [c]) eqn:Z; [reflexivity|]. symmetry. apply N.eqb_neq. intros ->. discriminate K. }
    rewrite r_bind. unfold bind at 1. rewrite (uri_run false (0x21 :: a) y rest m _ Fy R1); [|cbn [tl]; eapply Forall_impl; [|exact Fa]; intros c Hc ->; discriminate Hc|left; discriminate].
    assert (X : forall l (k : tok -> cm token), exists t, bind (match l with [] => ret (TTag [] [0x21]) | _ :: _ => ret (TTag [0x21] l) end) k = k t) by (intros [|? ?] k; eexists; reflexivity).
    match goal with |- context [bind (match ?l with [] => _ | _ :: _ => _ end) ?k] => destruct (X l k) as [t Et] end. rewrite Et, r_cache, stop_end, R. cbn [negb]. eexists. reflexivity.
Qed.
(* a long handle with nothing behind it *)
Lemma uri_none rest start m : uri_class false (nth 0 rest 0) = false -> exists e, scan_tag_uri false [] start (fc rest m) = CErr e.
Proof.
  intros N. unfold scan_tag_uri. run. fold (uri_body false start). unfold bind.
  change (loop _ (tl [], false) (fc rest m)) with (loop (uri_body false start) ([], false) (fc ([] ++ rest) m)).
  pose proof (uri_loop false start rest [] [] false m (Forall_nil _) N) as L. cbn [flat_map] in L. rewrite L. eexists. reflexivity.
Qed.
Lemma scan_tag_empty (flow : bool) name rest m : Forall (fun c => is_alpha c = true) name -> uri_class false (nth 0 rest 0) = false ->
  exists e, scan_tag flow (fc ((0x21 :: name ++ [0x21]) ++ rest) m) = CErr e.
Proof.
  intros Fn R1. unfold scan_tag. rewrite r_mark, r_cache. cbn [app]. rewrite <- (app_assoc name). cbn [app].
  rewrite (r_check 1); [|cbn [length]; rewrite app_length; cbn; lia|reflexivity]. cbn [nth].
  assert (E : eqc 0x3C (nth 0 (name ++ 0x21 :: rest) 0) = false).
  { destruct name as [|c name]; [reflexivity|]. inversion Fn as [|? ? Fc _]; subst. cbn [app nth]. unfold eqc. apply N.eqb_neq. intros ->. discriminate Fc. }
  rewrite E. cbv iota. rewrite r_bind. unfold bind at 1. rewrite (handle_long false m name rest m Fn).
  replace (is_handle (0x21 :: name ++ [0x21])) with true.
  2:{ unfold is_handle. rewrite app_comm_cons, last_last. destruct (name ++ [0x21]) eqn:Z; [destruct name; discriminate|]. reflexivity. }
  rewrite r_bind. unfold bind at 1. match goal with |- context [scan_tag_uri false [] ?a (fc ?b ?c)] => destruct (uri_none b a c R1) as [er Er] end. rewrite Er. eexists. reflexivity.
Qed.

Definition special (c : N) : bool := (c =? 0x2C) || (c =? 0x5B) || (c =? 0x5D).
Lemma split_special x : (~ In 0x2C x /\ ~ In 0x5B x /\ ~ In 0x5D x) \/ exists u c v, x = u ++ c :: v /\ special c = true /\ (~ In 0x2C u /\ ~ In 0x5B u /\ ~ In 0x5D u).
Proof.
  induction x as [|c x [IH|(u & c0 & v & -> & Sp & IH)]].
  - left. auto.
  - destruct (special c) eqn:E.
    + right. exists [], c, x. split; [reflexivity|]. split; [exact E|]. repeat split; intros [].
    + left. unfold special in E. cbn [In]. repeat split; intros [->|I]; try discriminate E; tauto.
  - right. destruct (special c) eqn:E.
    + exists [], c, (u ++ c0 :: v). split; [reflexivity|]. split; [exact E|]. repeat split; intros [].
    + exists (c :: u), c0, v. split; [reflexivity|]. split; [exact Sp|]. unfold special in E. cbn [In]. repeat split; intros [->|I]; try discriminate E; tauto.
Qed.
Lemma special_class c : special c = true -> uri_class false c = false /\ is_alpha c = false /\ c <> 0x21 /\ c <> 0x3C /\ tag_char c = [c] /\ is_blankz c = false.
Proof. unfold special. intros H. assert (K : c = 0x2C \/ c = 0x5B \/ c = 0x5D) by lia. destruct K as [->|[->| ->]]; repeat split; try discriminate; reflexivity. Qed.

Lemma tag_not_read flow m t x h p rest c : In (h, p) (m_tags m) -> t = p ++ x ->
  Forall (fun td => valid_handle (fst td)) (m_tags m) -> NoDup (map fst (m_tags m)) -> Forall scalar_value t -> ~ In 0 t ->
  ~ (~ In 0x2C x /\ ~ In 0x5B x /\ ~ In 0x5D x) -> at_text c (tag_text (Some h) x ++ rest) ->
  forall hh s mk e b c', scan_tag flow c = COk (mkToken (TTag hh s) mk e b) c' -> resolve_tag (utf8_tags (m_tags m)) hh s <> Some (utf8 t).
Proof.
  intros I Et V ND S Z Bad (T & Bd & U) hh s mk e b c' Sc.
  destruct (split_special x) as [G|(u & c0 & v & Ex & Sp & Gu)]; [contradiction|]. destruct (special_class c0 Sp) as (P1 & P2 & P3 & P4 & P5 & P6).
  assert (Vh : valid_handle h) by (rewrite Forall_forall in V; exact (V (h, p) I)).
  pose proof (free_scan_tag flow c (conj Bd (eq_ind_r (fun x => (c_unread c <= Datatypes.S (length x))%nat) (proj2 U) T))) as K. rewrite Sc, fc_full, T in K.
  rewrite Ex in K. cbn [tag_text] in K. rewrite flat_map_app in K. cbn [flat_map] in K. rewrite P5, <- !app_assoc in K. cbn [app] in K.
  set (rest2 := c0 :: flat_map tag_char v ++ rest) in *. rewrite app_assoc in K. change (h ++ flat_map tag_char u) with (tag_text (Some h) u) in K.
  assert (Fu : Forall (uri_ok false) u).
  { rewrite Et, Ex in S, Z. apply Forall_app in S as [_ S]. apply Forall_app in S as [S _]. apply uri_oks; [exact S|intros J; apply Z; apply in_or_app; right; apply in_or_app; auto|right; exact Gu]. }
  assert (Cases : (exists name, h = 0x21 :: name ++ [0x21] /\ Forall (fun c => is_alpha c = true) name /\ u = []) \/ tag_fits (Some h) u).
  { destruct Vh as [->|(n & -> & F)]; [right; split; [exact Fu|right; reflexivity]|]. destruct u as [|u0 u]; [left; exists n; auto|]. right. split; [exact Fu|]. left. exists n. split; [reflexivity|]. split; [exact F|discriminate]. }
  destruct Cases as [(name & -> & Fn & ->)|Fit].
  { destruct (scan_tag_empty flow name rest2 (c_mark c) Fn P1) as [er Er]. cbn [tag_text flat_map] in K. rewrite app_nil_r, Er in K. destruct K as [K _]. discriminate K. }
  destruct (tag_stop flow rest2) eqn:St.
  2:{ destruct (scan_tag_stops flow h u rest2 (c_mark c) Fit St P1 P2 P3 P4) as [er Er]. rewrite Er in K. destruct K as [K _]. discriminate K. }
  rewrite (scan_tag_run flow (Some h) u rest2 (c_mark c) Fit (proj1 (stop_follow _ _) St)) in K. destruct K as [K _]. injection K as Kt _ _ _ _ _ _.
  unfold tag_tok in Kt. intros R.
  assert (Inj : utf8 (p ++ x) = utf8 p ++ utf8 u ++ utf8 (c0 :: v)) by (rewrite Ex; unfold utf8; rewrite !flat_map_app; reflexivity).
  assert (E0 : utf8 (c0 :: v) = c0 :: utf8 v) by (cbn [utf8 flat_map]; unfold special in Sp; assert (c0 = 0x2C \/ c0 = 0x5B \/ c0 = 0x5D) as [->|[->| ->]] by lia; reflexivity).
  rewrite Et, Inj, E0 in R. destruct u as [|u0 u1].
  - injection Kt as <- <-. cbn [resolve_tag utf8 flat_map app] in R. injection R as R.
    assert (J : In c0 [0x21]) by (rewrite R; apply in_or_app; right; left; reflexivity). destruct J as [J|[]]. congruence.
  - injection Kt as <- <-. unfold resolve_tag in R. destruct h as [|h0 h1] eqn:Eh; [exact (proj2 (handle_utf8 _ Vh) eq_refl)|]. rewrite <- Eh in *.
    rewrite (find_handle (m_tags m) h p V ND I) in R. cbn [snd] in R. injection R as R. apply app_inv_head in R. assert (G : forall q r : list N, q = q ++ c0 :: r -> False) by (intros q r Q; apply (f_equal (@length N)) in Q; rewrite app_length in Q; cbn in Q; lia). exact (G _ _ R).
Qed.
Theorem tag_exact (flow : bool) m t d : analyze_tag (m_tags m) t no_data = inr d ->
  Forall (fun td => valid_handle (fst td)) (m_tags m) -> NoDup (map fst (m_tags m)) -> Forall scalar_value t -> ~ In 0 t ->
  exists sp w, (sp = [] \/ sp = [0x20]) /\ written (m_pen (process_tag (set_data m d))) = written (m_pen m) ++ sp ++ w /\
    forall rest c, tag_follow flow rest -> at_text c (w ++ rest) ->
    ((exists h s e c', scan_tag flow c = COk (mkToken (TTag h s) (c_mark c) e false) c' /\ c_text c' = rest /\ resolve_tag (utf8_tags (m_tags m)) h s = Some (utf8 t))
     <-> suffixes_ok (m_tags m) t).
Proof.
  intros A V ND S Z.
  assert (Ht : has_tag d = true /\ exists x, a_suffix d = Some x).
  { unfold analyze_tag in A. destruct t; [discriminate|]. destruct (match_tag _ _) as [[? ?]|]; injection A as <-; split; try reflexivity; eexists; reflexivity. }
  destruct Ht as [Ht [x Ex]].
  pose proof (process_tag_text (set_data m d)) as P. cbv zeta in P. change (m_data (set_data m d)) with d in P. rewrite Ht in P. destruct P as (P & _).
  exists (gap (m_pen m)), (tag_text (a_handle d) x). split; [unfold gap; destruct (p_white (m_pen m)); auto|]. split.
  { change written with chars. etransitivity; [exact P|]. unfold tag_written. rewrite Ex. destruct (a_handle d); reflexivity. }
  intros rest c Fl At. split.
  - intros (h & s & e & c' & Sc & _ & R) x' Sh. destruct (split_special x') as [G|(u & c0 & v & Ex' & Sp & Gu)]; [exact G|]. exfalso.
    apply match_shorthand in Sh. destruct Sh as [h' M]. destruct (match_spec _ _ _ _ M) as (p & I & E & Nx).
    assert (Ed : a_handle d = Some h' /\ x = x').
    { unfold analyze_tag in A. destruct t; [discriminate|]. rewrite M in A. injection A as <-. cbn in Ex. injection Ex as ->. auto. }
    destruct Ed as [Ed ->]. rewrite Ed in At.
    refine (tag_not_read flow m t x' h' p rest c I E V ND S Z _ At _ _ _ _ _ _ Sc R).
    rewrite Ex'. intros (N1 & N2 & N3). unfold special in Sp. assert (K : c0 = 0x2C \/ c0 = 0x5B \/ c0 = 0x5D) by lia. destruct K as [->|[->| ->]]; [apply N1|apply N2|apply N3]; apply in_or_app; right; left; reflexivity.
  - intros Ok. destruct (analyzed_tag _ _ _ _ A eq_refl V ND S Z Ok) as (_ & x' & Ex' & _ & Fx & h & s & Et & R). assert (x' = x) by congruence. subst x'.
    destruct (tag_text_head _ _ Fx) as [H0 Hn].
    edestruct (tag_any_buffer flow c _ rest (mkToken (TTag h s) (c_mark c) (next_column (nlen (tag_text (a_handle d) x)) (c_mark c)) false) At) as (c' & E & T').
    + destruct (tag_text (a_handle d) x); [contradiction|]. exact H0.
    + rewrite <- Et. eexists. apply scan_tag_run; assumption.
    + exists h, s, (next_column (nlen (tag_text (a_handle d) x)) (c_mark c)), c'. auto.
Qed.
