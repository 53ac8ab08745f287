(* Programs that scan lose no memory. *)
From Coq Require Import Permutation.
From Verif Require Import Base ReaderModel Utf8Spec CharSpec Types CursorModel ScanModel ParserModel DocModel
  HeapModel HeapSpec HeapLemmas HeapEvents HeapDocs HeapLoaderModel HeapLoader HeapTokenModel HeapTokenSpec HeapScan HeapLexModel HeapLex HeapLexRun HeapLexScalar
  ScannerModel ScannerSpec ScannerFetch ScannerFinal HeapScanModel HeapScanSpec HeapScanSim HeapParserModel HeapParserSpec HeapParser HeapScanProg ScanRest HeapFinal.

(* ---- a call that succeeds leaves parser->error alone ---- *)
Definition silent {A} (m : sm A) : Prop := forall s a s', m s = SOk a s' -> s_error s' = s_error s.
Lemma silent_bind {A B} (m : sm A) (k : A -> sm B) : silent m -> (forall a, silent (k a)) -> silent (sbind m k).
Proof. intros H K s a s' R. unfold sbind in R. destruct (m s) as [x s1| | |] eqn:M; try discriminate. rewrite (K _ _ _ _ R). exact (H _ _ _ M). Qed.
Lemma silent_get : silent ScannerModel.get.
Proof. intros s a s' R. injection R as <- <-. reflexivity. Qed.
Lemma silent_modify f : (forall s, s_error (f s) = s_error s) -> silent (modify f).
Proof. intros F s a s' R. injection R as <- <-. apply F. Qed.
Lemma silent_ret {A} (a : A) : silent (sret a).
Proof. intros s x s' R. injection R as <- <-. reflexivity. Qed.
Lemma silent_error {A} ctx p : silent (@serror A ctx p).
Proof. intros s x s' R. discriminate R. Qed.
Lemma silent_bad {A} : silent (fun _ => @SBad A).
Proof. intros s x s' R. discriminate R. Qed.
Lemma silent_fuel {A} : silent (fun _ => @SFuel A).
Proof. intros s x s' R. discriminate R. Qed.
Lemma silent_lift {A} (m : cm A) : silent (lift m).
Proof. intros s x s' R. unfold lift in R. destruct (m (s_cur s)); try discriminate. injection R as <- <-. reflexivity. Qed.
Lemma silent_allow b : silent (allow b).
Proof. apply silent_modify. reflexivity. Qed.
Lemma silent_enqueue t : silent (enqueue t).
Proof. apply silent_modify. reflexivity. Qed.
Lemma silent_insert n t : silent (queue_insert n t).
Proof. intros s x s' R. unfold queue_insert in R. destruct (_ && _)%bool; [|discriminate]. injection R as <- <-. reflexivity. Qed.
Lemma silent_stale : silent stale_simple_keys.
Proof. intros s x s' R. unfold stale_simple_keys in R. destruct (stale (smark s) (s_keys s)); [|discriminate]. injection R as <- <-. reflexivity. Qed.
Lemma silent_remove : silent remove_simple_key.
Proof. intros s x s' R. unfold remove_simple_key in R. destruct (s_keys s) as [|k ks]; [discriminate|]. destruct (_ && _); [discriminate|]. injection R as <- <-. reflexivity. Qed.
Lemma silent_decrease : silent decrease_flow_level.
Proof. intros s x s' R. unfold decrease_flow_level in R. destruct (s_flow s =? 0); [injection R as <- <-; reflexivity|]. destruct (s_keys s); [discriminate|]. injection R as <- <-. reflexivity. Qed.
Lemma silent_unroll c : silent (unroll_indent c).
Proof.
  intros s x s' R. unfold unroll_indent in R. destruct (in_flow s); [injection R as <- <-; reflexivity|].
  destruct (unroll (smark s) c (s_indent s) (s_indents s) (s_tokens s)) as [[[i is] q']|] eqn:U; [|discriminate]. injection R as <- <-. reflexivity.
Qed.
Create HintDb sl discriminated.
#[local] Hint Resolve silent_get silent_ret silent_error silent_bad silent_fuel silent_allow silent_enqueue silent_stale silent_remove silent_lift silent_insert silent_decrease silent_unroll : sl.
Ltac slt :=
  repeat (intros; match goal with
  | |- silent (sbind _ _) => apply silent_bind
  | |- silent (modify _) => apply silent_modify; intros; try reflexivity
  | |- silent (if ?b then _ else _) => destruct b
  | |- silent (match ?x with _ => _ end) => destruct x
  | |- _ => solve [auto with sl]
  end).
Lemma silent_save : silent save_simple_key. Proof. unfold save_simple_key. slt. Qed.
Lemma silent_increase : silent increase_flow_level. Proof. unfold increase_flow_level. slt. Qed.
Lemma silent_roll c n t m : silent (roll_indent c n t m). Proof. unfold roll_indent. slt. Qed.
#[local] Hint Resolve silent_save silent_increase silent_roll : sl.
Lemma silent_reset : silent reset_block. Proof. unfold reset_block. slt. Qed.
Lemma silent_chars n t : silent (fetch_chars n t). Proof. unfold fetch_chars. slt. Qed.
#[local] Hint Resolve silent_reset silent_chars : sl.
Lemma silent_block_start p t : silent (block_start p t). Proof. unfold block_start. slt. Qed.
#[local] Hint Resolve silent_block_start : sl.
Lemma silent_value : silent fetch_value. Proof. unfold fetch_value. slt. Qed.
#[local] Hint Resolve silent_value : sl.
Lemma silent_branch b : silent (fetch_branch b).
Proof.
  destruct b; cbn [fetch_branch];
  unfold fetch_stream_end, fetch_directive, fetch_document_indicator, fetch_flow_collection_start, fetch_flow_collection_end, fetch_flow_entry, fetch_block_entry, fetch_key, fetch_anchor, fetch_tag, fetch_block_scalar, fetch_flow_scalar, fetch_plain_scalar; slt.
  intros s x s' R. discriminate R.
Qed.
#[local] Hint Resolve silent_branch : sl.
Lemma silent_next : silent fetch_next_token.
Proof. unfold fetch_next_token, fetch_stream_start. slt. Qed.
Lemma silent_more_n n : silent (fetch_more_n n).
Proof.
  induction n as [|n IH]; [apply silent_fuel|]. intros s a s' R.
  assert (K : silent (sbind pure_need (fun need => if need then sbind fetch_next_token (fun _ => fetch_more_n n) else modify (fun s => set_avail s true)))).
  { apply silent_bind.
    - intros s1 b s2 R1. unfold pure_need in R1. destruct (s_tokens s1); [injection R1 as <- <-; reflexivity|].
      revert R1. apply silent_bind; [apply silent_stale|]. intros u. apply silent_bind; [apply silent_get|]. intros s3. apply silent_ret.
    - intros b. destruct b; [apply silent_bind; [apply silent_next|intros u; exact IH]|apply silent_modify; reflexivity]. }
  exact (K s a s' R).
Qed.
Lemma silent_more s a s' : fetch_more_tokens s = SOk a s' -> s_error s' = s_error s.
Proof. apply silent_more_n. Qed.

(* ---- yaml_parser_scan ---- *)
Definition scan_result (y : ysc) (h : heap) (r : yres (option htoken)) : Prop :=
  match r with
  | YOk None y' h' => y' = y /\ h' = h /\ scan (y_at h y) = ScanNothing (y_at h y)
  | YOk (Some t) y' h' => good h' /\ ext h h' /\ changes h (y_blocks y) (token_blocks t ++ y_blocks y') h' /\ ywf y' /\
      scan (y_at h y) = ScanToken (token_at h' t) (y_at h' y') /\ s_error (y_sc y') = None
  | YErr e y' h' => good h' /\ ext h h' /\ changes h (y_blocks y) (y_blocks y') h' /\ ywf y' /\
      match e with XScan e => scan (y_at h y) = ScanFail (set_error (y_at h y) e) | _ => ~ generous h end
  | _ => False
  end.
Lemma stream_end_tok h t : is_stream_end (t_tok (token_at h t)) = is_hstream_end (ht_tok t).
Proof. destruct t as [[] ? ? ?]; reflexivity. Qed.
Lemma scan_does y h : good h -> holds h (y_blocks y) -> ywf y -> s_error (y_sc y) = None ->
  scan (y_at h y) <> ScanBad -> scan (y_at h y) <> ScanFuel -> scan_result y h (y_scan y h).
Proof.
  intros G H W Ne NB NF. unfold y_scan, ybind at 1, yget.
  assert (Ne' : s_error (y_at h y) = None) by exact Ne.
  unfold scan in NB, NF. rewrite Ne', orb_false_r in NB, NF. change (s_ended (y_at h y)) with (s_ended (y_sc y)) in *.
  destruct (s_ended (y_sc y)) eqn:En.
  { cbn. split; [reflexivity|]. split; [reflexivity|]. unfold scan. rewrite Ne', orb_false_r. change (s_ended (y_at h y)) with (s_ended (y_sc y)). rewrite En. reflexivity. }
  change (s_avail (y_at h y)) with (s_avail (y_sc y)) in *.
  set (m := if s_avail (y_sc y) then yret tt else y_more). set (p := if s_avail (y_sc y) then sret tt else fetch_more_tokens).
  assert (P : (if s_avail (y_sc y) then SOk tt (y_at h y) else fetch_more_tokens (y_at h y)) = p (y_at h y)) by (unfold p; destruct (s_avail (y_sc y)); reflexivity).
  assert (Sil : forall a s', p (y_at h y) = SOk a s' -> s_error s' = None).
  { intros a s' E. rewrite <- Ne'. unfold p in E. destruct (s_avail (y_sc y)); [injection E as _ <-; reflexivity|exact (silent_more _ _ _ E)]. }
  rewrite P in NB, NF.
  assert (M : ysim0 m p) by (unfold m, p; destruct (s_avail (y_sc y)); [apply ysim_ret; exact I|apply ysim_more]).
  assert (NB' : p (y_at h y) <> SBad) by (intros E; rewrite E in NB; apply NB; reflexivity).
  assert (NF' : p (y_at h y) <> SFuel) by (intros E; rewrite E in NF; apply NF; reflexivity).
  assert (Sc : scan (y_at h y) = match p (y_at h y) with
    | SErr e => ScanFail (set_error (y_at h y) e) | SBad => ScanBad | SFuel => ScanFuel
    | SOk _ s => match s_tokens s with [] => ScanBad | t :: q =>
          ScanToken (mkToken (t_tok t) (t_start t) (t_end t) (is_deep s))
            (mkSc (s_cur s) (s_enc s) (s_started s) (s_ended s || is_stream_end (t_tok t)) (s_error s) (s_flow s) q
               (s_parsed s + 1) false (s_indents s) (s_indent s) (s_allowed s) (s_keys s) (s_nest s)) end end).
  { unfold scan. rewrite Ne', orb_false_r. change (s_ended (y_at h y)) with (s_ended (y_sc y)). rewrite En. change (s_avail (y_at h y)) with (s_avail (y_sc y)). rewrite P. reflexivity. }
  clear P. specialize (M y h G H W NB' NF'). unfold ybind at 1. destruct (m y h) as [u y1 h1|e y1 h1| |]; [| |contradiction|contradiction].
  2:{ destruct M as (G1 & X1 & C1 & W1 & E). cbn. split; [exact G1|]. split; [exact X1|]. split; [exact C1|]. split; [exact W1|].
      destruct e; [rewrite Sc, E; reflexivity|exact E|exact E]. }
  destruct M as (G1 & X1 & C1 & W1 & b & E & _). specialize (Sil _ _ E). rewrite E in *. clear NF NF' NB'.
  assert (H1 : holds h1 (y_blocks y1)) by (eapply changes_holds; eassumption).
  unfold ybind at 1, yget. unfold ybind at 1, yh. unfold h_dequeue. cbn [y_at s_tokens] in NB, Sc.
  destruct (a_els (y_tokens y1)) as [|t q] eqn:Q; [cbn in NB; congruence|]. clear NB.
  assert (T : h_touch (a_at (y_tokens y1)) h1 = HOk tt h1).
  { apply h_touch_ok; [apply W1|]. unfold y_blocks in H1. clear - H1. cn. }
  unfold hbind. rewrite T. cbn [hret fst snd]. unfold ybind, yput, ymod, yret. cbn [scan_result].
  split; [exact G1|]. split; [exact X1|]. split.
  { unfold y_blocks in C1 |- *. cbn [with_sc with_tokens y_raw y_buffer y_tokens y_indents y_keys a_at a_els]. rewrite Q in C1. cbn [flat_map] in C1.
    unfold token_blocks at 2. cbn [ht_tok]. fold (token_blocks t). clear - C1. cn. }
  split.
  { destruct W1 as (W1 & W2 & W3 & W4). rewrite Q in W4. inversion W4; subst. split; [|auto]. destruct W1 as (R1 & R2 & R3). unfold room, fits in *. cbn [with_sc with_tokens y_tokens a_at a_els a_off a_cap].
    rewrite Q in R2. cbn [length] in R2. apply Nat.leb_le in R2. split; [exact R1|]. split; [apply Nat.leb_le; lia|exact R3]. }
  split; [|exact Sil].
  rewrite Sc. cbn [map]. rewrite stream_end_tok.
  assert (Dp : is_deep (y_at h1 y1) = y_deep y1).
  { unfold is_deep, y_deep, y_at. cbn [s_indents s_nest s_flow]. rewrite rev_length. reflexivity. }
  rewrite Dp. reflexivity.
Qed.

(* ---- several calls ---- *)
Lemma calls_trans a b c : calls a b -> calls b c -> calls a c.
Proof. intros H K. induction H; [exact K|econstructor 2; eauto|econstructor 3; eauto|econstructor 4; eauto]. Qed.
Definition safe_from (s : sc) : Prop := forall s', calls s s' -> scan s' <> ScanBad /\ scan s' <> ScanFuel.
Lemma safe_next s t s' : safe_from s -> scan s = ScanToken t s' -> safe_from s'.
Proof. intros H E s2 C. apply H. econstructor 2; eassumption. Qed.
Lemma safe_init e nest T bad plan : safe_from (init_scanner e nest T bad plan).
Proof. intros s C. split; [eapply scan_safe|eapply scan_returns]; exact C. Qed.

Lemma take_does n : forall y h, good h -> holds h (y_blocks y) -> ywf y -> s_error (y_sc y) = None -> safe_from (y_at h y) ->
  exists ts e y' h', take_tokens n y h = Taken ts e y' h' /\ good h' /\ ext h h' /\
    changes h (y_blocks y) (flat_map token_blocks ts ++ y_blocks y') h' /\ ywf y' /\
    (exists rest, fst (scan_all n (y_at h y)) = map (token_at h') ts ++ rest) /\
    (if by_memory e then ~ generous h else scan_all n (y_at h y) = (map (token_at h') ts, snd (scan_all n (y_at h y))) /\ e = ending_of (snd (scan_all n (y_at h y)))).
Proof.
  induction n as [|n IH]; intros y h G H W Ne Sf; cbn [take_tokens scan_all].
  { exists [], Enough, y, h. split; [reflexivity|]. split; [exact G|]. split; [apply ext_refl|]. split; [apply changes_same|]. split; [exact W|].
    split; [exists []; reflexivity|]. cbn. auto. }
  destruct (Sf _ (calls_nil _)) as [NB NF].
  pose proof (scan_does y h G H W Ne NB NF) as R. destruct (y_scan y h) as [[t|] y1 h1|e y1 h1| |]; cbn [scan_result] in R; [| | |contradiction|contradiction].
  - destruct R as (G1 & X1 & C1 & W1 & Sc & Ne1). rewrite Sc.
    assert (H1 : holds h1 (token_blocks t ++ y_blocks y1)) by (eapply changes_holds; eassumption).
    destruct (IH y1 h1) as (ts & e & y2 & h2 & E & G2 & X2 & C2 & W2 & (rest & Pf) & R); [exact G1|clear - H1; cn|exact W1|exact Ne1|eapply safe_next; eassumption|].
    rewrite E. exists (t :: ts), e, y2, h2. split; [reflexivity|]. split; [exact G2|]. split; [eapply ext_trans; eassumption|]. split.
    { cbn [flat_map]. clear - C1 C2. cn. }
    split; [exact W2|]. assert (V : token_at h2 t = token_at h1 t) by (apply token_ext; [exact G1|exact X2|clear - H1; cn]).
    cbn [map]. rewrite V. destruct (scan_all n (y_at h1 y1)) as [l o] eqn:Al. cbn [fst snd] in *. split; [exists rest; rewrite Pf; reflexivity|].
    destruct (by_memory e); [intros g; apply R, X1, g|]. destruct R as [R Ee]. injection R as ->. auto.
  - destruct R as (-> & -> & Sc). rewrite Sc. exists [], AtEnd, y, h. split; [reflexivity|]. split; [exact G|]. split; [apply ext_refl|]. split; [apply changes_same|]. split; [exact W|].
    split; [exists []; reflexivity|]. change (s_error (y_at h y)) with (s_error (y_sc y)). rewrite Ne. cbn. auto.
  - destruct R as (G1 & X1 & C1 & W1 & R). exists [], (CallFailed e), y1, h1. split; [reflexivity|]. split; [exact G1|]. split; [exact X1|]. split; [exact C1|]. split; [exact W1|].
    split; [eexists; reflexivity|]. destruct e; cbn [by_memory]; [|exact R|exact R]. rewrite R. cbn. auto.
Qed.

Lemma delete_tokens_does ts : forall h, good h -> holds h (flat_map token_blocks ts) -> does (delete_tokens ts) h (flat_map token_blocks ts) (fun _ g _ => g = []).
Proof.
  induction ts as [|t ts IH]; intros h G H; unfold does; cbn [delete_tokens flat_map] in *.
  { eapply ends_ret; [exact G|apply ext_refl| |reflexivity]. cn. }
  destruct (token_delete_all t h G) as (u & g & h1 & E1 & G1 & X1 & C1 & ->); [clear - H; cn|].
  rewrite (bind_ok _ _ _ _ _ E1). destruct (IH h1 G1) as (u2 & g & h2 & E2 & G2 & X2 & C2 & ->); [clear - H C1; cn|].
  rewrite E2. eexists. eexists. eexists. split; [reflexivity|]. split; [exact G2|]. split; [eapply ext_trans; eassumption|]. split; [|reflexivity]. clear - C1 C2. cn.
Qed.

(* ---- the programs ---- *)
Theorem scan_history e nest T bad plan n first h : good h -> let s := init_scanner e nest T bad plan in
  exists toks en h', scan_program s n first h = HOk (toks, en) h' /\ Permutation (live h') (live h) /\
    (exists rest, fst (scan_all n s) = toks ++ rest) /\
    (if by_memory en then ~ generous h else toks = fst (scan_all n s) /\ en = ending_of (snd (scan_all n s))).
Proof.
  intros G s. destruct (initialize_does s h) as (r & g & h1 & E & G1 & X1 & C1 & R); [unfold fresh, s; eauto 10|exact G|]. unfold scan_program. rewrite (bind_ok _ _ _ _ _ E). destruct r as [p|]; cbn [made] in R.
  2:{ destruct R as (-> & N). exists [], NoParser, h1. split; [reflexivity|]. split; [exact (changes_perm _ _ _ _ C1 eq_refl)|]. split; [eexists; reflexivity|exact N]. }
  destruct R as (-> & (Wp & _) & _ & V & _). assert (H1 : holds h1 (hp_blocks p)) by (clear - C1; cn).
  pose proof Wp as (Wy & Wr).
  destruct (take_does n (hp_scan p) h1 G1) as (ts & en & y2 & h2 & E2 & G2 & X2 & C2 & W2 & Pf & R).
  { unfold hp_blocks in H1. clear - H1. cn. }
  { exact Wy. }
  { change (s_error (y_at h1 (hp_scan p)) = None). rewrite V. reflexivity. }
  { rewrite V. apply safe_init. }
  rewrite V in *. rewrite E2. 
  assert (C2' : changes h1 (hp_blocks p) (flat_map token_blocks ts ++ hp_blocks (with_scan p y2)) h2) by (unfold hp_blocks in *; cbn [with_scan hp_scan hp_tags hp_marks hp_states]; clear - C2; cn).
  clear C2. rename C2' into C2.
  assert (W2' : wf (with_scan p y2)) by (split; [exact W2|exact Wr]). clear W2. rename W2' into W2.
  assert (H2 : holds h2 (flat_map token_blocks ts ++ hp_blocks (with_scan p y2))) by (eapply changes_holds; eassumption).
  set (p2 := with_scan p y2) in *.
  assert (D : exists h3, (if first then hbind (delete_tokens ts) (fun _ => parser_delete p2) else hbind (parser_delete p2) (fun _ => delete_tokens ts)) h2 = HOk tt h3 /\ changes h [] [] h3).
  { destruct first.
    - destruct (delete_tokens_does ts h2 G2) as ([] & g & h3 & E3 & G3 & X3 & C3 & ->); [clear - H2; cn|].
      destruct (delete_does p2 h3 G3 W2) as ([] & g & h4 & E4 & G4 & X4 & C4 & ->); [clear - H2 C3; cn|].
      exists h4. rewrite (bind_ok _ _ _ _ _ E3). split; [exact E4|]. clear - C1 C2 C3 C4. cn.
    - destruct (delete_does p2 h2 G2 W2) as ([] & g & h3 & E3 & G3 & X3 & C3 & ->); [clear - H2; cn|].
      destruct (delete_tokens_does ts h3 G3) as ([] & g & h4 & E4 & G4 & X4 & C4 & ->); [clear - H2 C3; cn|].
      exists h4. rewrite (bind_ok _ _ _ _ _ E3). split; [exact E4|]. clear - C1 C2 C3 C4. cn. }
  destruct D as (h3 & E3 & C3). exists (map (token_at h2) ts), en, h3. rewrite (bind_ok _ _ _ _ _ E3).
  split; [reflexivity|]. split; [exact (changes_perm _ _ _ _ C3 eq_refl)|]. split; [exact Pf|].
  destruct (by_memory en); [intros g; apply R, X1, g|]. destruct R as [R1 R2]. split; [rewrite R1; reflexivity|exact R2].
Qed.
