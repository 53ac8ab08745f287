(* Two runs of the scanner side by side, on texts that begin alike: tokens, simple keys
   and indentation.  The second run has handed out [dp] tokens more than the first one. *)
From Verif Require Import Base ReaderModel Utf8Spec CharSpec Types CursorModel ScanModel ScannerModel ScannerSpec ScannerFinal PlanFree LineCur SplitSpec SplitCur SplitScan.

(* fetching does not give characters back *)
Definition slen (s : sc) : nat := length (c_text (s_cur s)).
Definition shs {A} (m : sm A) : Prop := forall s a s', m s = SOk a s' -> (slen s' <= slen s)%nat.
Lemma shs_bind {A B} (m : sm A) (k : A -> sm B) : shs m -> (forall a, shs (k a)) -> shs (sbind m k).
Proof. intros H K s b s' E. unfold sbind in E. destruct (m s) as [a s1|e| |] eqn:E1; try discriminate. apply K in E. apply H in E1. lia. Qed.
Lemma shs_ret {A} (a : A) : shs (sret a). Proof. intros s b s' E. injection E as _ <-. lia. Qed.
Lemma shs_get : shs get. Proof. intros s b s' E. injection E as _ <-. lia. Qed.
Lemma shs_error {A} o p : shs (@serror A o p). Proof. discriminate. Qed.
Lemma shs_bad {A} : shs (fun _ => @SBad A). Proof. discriminate. Qed.
Lemma shs_modify f : (forall s, s_cur (f s) = s_cur s) -> shs (modify f).
Proof. intros H s b s' E. injection E as _ <-. unfold slen. rewrite H. lia. Qed.
Lemma shs_lift {A} (m : cm A) : shrinks m -> shs (lift m).
Proof. intros H s a s' E. unfold lift in E. destruct (m (s_cur s)) as [b c|e| |] eqn:E1; try discriminate. injection E as _ <-. apply H in E1. exact E1. Qed.
Lemma shs_insert n t : shs (queue_insert n t).
Proof. intros s a s' E. unfold queue_insert in E. destruct (_ && _); [|discriminate]. injection E as _ <-. unfold slen. cbn. lia. Qed.
Lemma shs_stale : shs stale_simple_keys.
Proof. intros s a s' E. unfold stale_simple_keys in E. destruct (stale _ _); [|discriminate]. injection E as _ <-. unfold slen. cbn. lia. Qed.
Lemma shs_remove : shs remove_simple_key.
Proof. intros s a s' E. unfold remove_simple_key in E. destruct (s_keys s); [discriminate|]. destruct (_ && _); [discriminate|]. injection E as _ <-. unfold slen. cbn. lia. Qed.
Lemma shs_decrease : shs decrease_flow_level.
Proof. intros s a s' E. unfold decrease_flow_level in E. destruct (_ =? _); [injection E as _ <-; lia|]. destruct (s_keys s); [discriminate|]. injection E as _ <-. unfold slen. cbn. lia. Qed.
Lemma shs_unroll c : shs (unroll_indent c).
Proof. intros s a s' E. unfold unroll_indent in E. destruct (in_flow s); [injection E as _ <-; lia|]. destruct (unroll _ _ _ _ _) as [[[i is] q]|]; [|discriminate]. injection E as _ <-. unfold slen. cbn. lia. Qed.
Create HintDb shs discriminated.
#[export] Hint Resolve shs_ret shs_get shs_error shs_bad shs_insert shs_stale shs_remove shs_decrease shs_unroll : shs.
Lemma nothing_apart : apart [] [] \/ (@nil N = [] /\ @nil N = []). Proof. auto. Qed.
Ltac shr := repeat (intros; match goal with
  | |- shs (sbind _ _) => apply shs_bind
  | |- shs (modify _) => apply shs_modify; reflexivity
  | |- shs (allow _) => apply shs_modify; reflexivity
  | |- shs (enqueue _) => apply shs_modify; reflexivity
  | |- shs (if ?b then _ else _) => destruct b
  | |- shs (match ?x with _ => _ end) => destruct x
  | |- shs (lift _) => apply shs_lift
  | |- shrinks (cache _) => apply shrinks_cache
  | |- shrinks (skip_n _) => exact (proj1 (l_skip_n [] [] 0 0 nothing_apart _))
  | |- shrinks force_line => exact (proj1 (loc_force_line [] [] 0 0))
  | |- shrinks scan_directive => exact (proj1 (l_directive [] [] 0 0 nothing_apart))
  | |- shrinks (scan_anchor _) => exact (proj1 (l_anchor [] [] 0 0 nothing_apart _))
  | |- shrinks (scan_tag _) => exact (proj1 (l_tag [] [] 0 0 nothing_apart _))
  | |- shrinks (scan_block_scalar _ _) => exact (proj1 (l_block_scalar [] [] 0 0 nothing_apart _ _))
  | |- shrinks (scan_flow_scalar _) => exact (proj1 (l_flow_scalar [] [] 0 0 nothing_apart _))
  | |- shrinks (scan_plain_scalar _ _) => exact (proj1 (l_plain_scalar [] [] 0 0 nothing_apart _ _))
  | |- shrinks (scan_to_next_token _ _) => exact (proj1 (l_to_next [] [] 0 0 nothing_apart _ _))
  | |- shrinks (choose _) => exact (proj1 (l_choose [] [] 0 0 nothing_apart _))
  | |- _ => solve [auto with shs]
  end).
Lemma shs_save : shs save_simple_key. Proof. unfold save_simple_key. shr. Qed.
Lemma shs_increase : shs increase_flow_level. Proof. unfold increase_flow_level. shr. Qed.
Lemma shs_roll c n t m : shs (roll_indent c n t m). Proof. unfold roll_indent. shr. Qed.
Lemma shs_reset : shs reset_block. Proof. unfold reset_block. shr. Qed.
Lemma shs_chars n t : shs (fetch_chars n t). Proof. unfold fetch_chars. shr. Qed.
#[export] Hint Resolve shs_save shs_increase shs_roll shs_reset shs_chars : shs.
Lemma shs_block_start p t : shs (block_start p t). Proof. unfold block_start. shr. Qed.
#[export] Hint Resolve shs_block_start : shs.
Lemma shs_value : shs fetch_value. Proof. unfold fetch_value. shr. Qed.
#[export] Hint Resolve shs_value : shs.
Lemma shs_branch b : shs (fetch_branch b).
Proof.
  destruct b; cbn [fetch_branch]; unfold fetch_stream_end, fetch_directive, fetch_document_indicator, fetch_flow_collection_start, fetch_flow_collection_end, fetch_flow_entry,
    fetch_block_entry, fetch_key, fetch_anchor, fetch_tag, fetch_block_scalar, fetch_flow_scalar, fetch_plain_scalar; shr. discriminate.
Qed.
#[export] Hint Resolve shs_branch : shs.
Lemma shs_stream_start : shs fetch_stream_start. Proof. unfold fetch_stream_start. shr. Qed.
#[export] Hint Resolve shs_stream_start : shs.
Lemma shs_next : shs fetch_next_token.
Proof. unfold fetch_next_token. shr. Qed.
#[export] Hint Resolve shs_next : shs.
Lemma shs_more n : shs (fetch_more_n n).
Proof.
  induction n as [|n IH]; intros s a s' E; [discriminate|]. cbn [fetch_more_n] in E. revert E. match goal with |- ?m s = _ -> _ => assert (K : shs m); [|apply K] end.
  apply shs_bind; [destruct (s_tokens s); shr|]. intros []; shr.
Qed.

Section S.
Variables (X Y : list N) (di dl dp : N).
Hypothesis tails : apart X Y \/ (X = [] /\ Y = []).
Notation mv := (move di dl).
Notation mm := (move_mark di dl).
Notation mt := (move_token di dl).

Definition krel (k1 k2 : skey) : Prop :=
  k_possible k2 = k_possible k1 /\
  (k_possible k1 = true -> k_required k2 = k_required k1 /\ k_number k2 = k_number k1 + dp /\ k_mark k2 = mm (k_mark k1)).
Record srel (s1 s2 : sc) : Prop := {
  r_cur : exists t m, s_cur s1 = cu (t ++ X) m /\ s_cur s2 = cu (t ++ Y) (mm m) /\ lined X Y t;
  r_enc : s_enc s2 = s_enc s1;
  r_started : s_started s2 = s_started s1;
  r_ended : s_ended s2 = s_ended s1;
  r_error : s_error s2 = option_map (move_error di dl) (s_error s1);
  r_flow : s_flow s2 = s_flow s1;
  r_tokens : s_tokens s2 = map mt (s_tokens s1);
  r_parsed : s_parsed s2 = s_parsed s1 + dp;
  r_avail : s_avail s2 = s_avail s1;
  r_indents : s_indents s2 = s_indents s1;
  r_indent : s_indent s2 = s_indent s1;
  r_allowed : s_allowed s2 = s_allowed s1;
  r_keys : Forall2 krel (s_keys s1) (s_keys s2);
  r_nest : s_nest s2 = s_nest s1 }.
Lemma r_mark s1 s2 : srel s1 s2 -> smark s2 = mm (smark s1).
Proof. intros H. destruct (r_cur _ _ H) as (t & m & E1 & E2 & _). unfold smark. rewrite E1, E2. reflexivity. Qed.
Lemma r_in_flow s1 s2 : srel s1 s2 -> in_flow s2 = in_flow s1.
Proof. intros H. unfold in_flow. rewrite (r_flow _ _ H). reflexivity. Qed.

Definition hits {A} (r : sres A) : Prop := apart X Y /\ match r with SOk _ s => (slen s <= length X)%nat | _ => True end.
Definition agrees {A} {_ : Moves A} (r1 r2 : sres A) : Prop :=
  match r1, r2 with
  | SOk a1 s1, SOk a2 s2 => a2 = mv a1 /\ srel s1 s2
  | SErr e1, SErr e2 => e2 = move_error di dl e1
  | SOk _ _, SErr _ | SErr _, SOk _ _ => False
  | _, _ => True
  end.
Definition bs {A} {_ : Moves A} (m1 m2 : sm A) (s1 s2 : sc) : Prop := hits (m1 s1) \/ agrees (m1 s1) (m2 s2).
Definition locs {A} {_ : Moves A} (m1 m2 : sm A) : Prop := forall s1 s2, srel s1 s2 -> bs m1 m2 s1 s2.

Lemma bs_bind {A B} {_ : Moves A} {_ : Moves B} (m1 m2 : sm A) (k1 k2 : A -> sm B) s1 s2 :
  bs m1 m2 s1 s2 -> (forall a, shs (k1 a)) -> (forall a, locs (k1 a) (k2 (mv a))) -> bs (sbind m1 k1) (sbind m2 k2) s1 s2.
Proof.
  intros [[N G]|G] S1 K; unfold bs, sbind.
  - left. split; [exact N|]. destruct (m1 s1) as [a s|e| |]; auto. destruct (k1 a s) as [b s'|e| |] eqn:E; auto. apply S1 in E. lia.
  - destruct (m1 s1) as [a1 s1'|e1| |]; destruct (m2 s2) as [a2 s2'|e2| |]; cbn in G; try contradiction; try (right; exact I).
    + destruct G as [-> G]. exact (K a1 _ _ G).
    + right. cbn. destruct (k1 a1 s1'); exact I.
    + right. cbn. destruct (k1 a1 s1'); exact I.
    + right. exact G.
Qed.
Lemma locs_bind {A B} {_ : Moves A} {_ : Moves B} (m1 m2 : sm A) (k1 k2 : A -> sm B) :
  locs m1 m2 -> (forall a, shs (k1 a)) -> (forall a, locs (k1 a) (k2 (mv a))) -> locs (sbind m1 k1) (sbind m2 k2).
Proof. intros H S1 K s1 s2 R. exact (bs_bind m1 m2 k1 k2 s1 s2 (H s1 s2 R) S1 K). Qed.
Lemma locs_get {B} {_ : Moves B} (k1 k2 : sc -> sm B) : (forall s1 s2, srel s1 s2 -> locs (k1 s1) (k2 s2)) -> locs (sbind get k1) (sbind get k2).
Proof. intros K s1 s2 R. exact (K s1 s2 R s1 s2 R). Qed.
Lemma locs_ret {A} {_ : Moves A} (a : A) : locs (sret a) (sret (mv a)).
Proof. intros s1 s2 R. right. split; [reflexivity|exact R]. Qed.
Lemma locs_error {A} {_ : Moves A} (o : option mark) p : locs (@serror A o p) (serror (option_map mm o) p).
Proof. intros s1 s2 R. right. cbn. rewrite (r_mark _ _ R). reflexivity. Qed.
Lemma locs_bad {A} {_ : Moves A} (m : sm A) : locs (fun _ => SBad) m.
Proof. intros s1 s2 R. right. exact I. Qed.
Lemma locs_modify f1 f2 : (forall s1 s2, srel s1 s2 -> srel (f1 s1) (f2 s2)) -> locs (modify f1) (modify f2).
Proof. intros H s1 s2 R. right. split; [reflexivity|apply H, R]. Qed.
Lemma locs_lift {A} {_ : Moves A} (m1 m2 : cm A) : locp X Y di dl 0 m1 m2 -> locs (lift m1) (lift m2).
Proof.
  intros [S1 H] s1 s2 R. destruct (r_cur _ _ R) as (t & m & E1 & E2 & L). unfold bs, lift. rewrite E1, E2. destruct (H t m L (nolf0 X Y t)) as [[N G]|G].
  - left. split; [exact N|]. destruct (m1 (cu (t ++ X) m)); auto.
  - right. destruct (m1 (cu (t ++ X) m)) as [a1 c1|e1| |]; destruct (m2 (cu (t ++ Y) (mm m))) as [a2 c2|e2| |]; cbn in G |- *; auto.
    destruct G as (-> & t' & m' & -> & -> & L'). split; [reflexivity|]. destruct R. constructor; auto. exists t', m'. auto.
Qed.
Ltac rel := match goal with R : srel _ _ |- srel _ _ => destruct R; constructor; cbn; auto end.
Lemma locs_allow b : locs (allow b) (allow b).
Proof. apply locs_modify. intros s1 s2 R. rel. Qed.
Lemma locs_enqueue t : locs (enqueue t) (enqueue (mt t)).
Proof. apply locs_modify. intros s1 s2 R. rel. rewrite r_tokens0, map_app. reflexivity. Qed.
Lemma locs_insert n t : locs (queue_insert n t) (queue_insert (n + dp) (mt t)).
Proof.
  intros s1 s2 R. right. unfold queue_insert. rewrite (r_parsed _ _ R), (r_tokens _ _ R), map_length.
  replace (n + dp - (s_parsed s1 + dp)) with (n - s_parsed s1) by lia. replace (s_parsed s1 + dp <=? n + dp) with (s_parsed s1 <=? n) by (apply eq_true_iff_eq; rewrite !N.leb_le; lia).
  destruct (_ && _); [|exact I]. split; [reflexivity|]. rel. rewrite map_app, firstn_map. cbn. rewrite skipn_map. reflexivity.
Qed.
Lemma stale_rel m ks1 ks2 : Forall2 krel ks1 ks2 ->
  match stale m ks1, stale (mm m) ks2 with
  | inl r1, inl r2 => Forall2 krel r1 r2
  | inr e1, inr e2 => e2 = mm e1
  | _, _ => False
  end.
Proof.
  induction 1 as [|k1 k2 ks1 ks2 K F IH]; [constructor|]. cbn [stale]. destruct (stale m ks1) as [r1|e1], (stale (mm m) ks2) as [r2|e2]; try contradiction; [|exact IH].
  destruct K as [K1 K2]. rewrite K1. destruct (k_possible k1) eqn:P; cbn [andb].
  - destruct (K2 eq_refl) as (Q1 & Q2 & Q3). rewrite Q1, Q3. cbn [move_mark m_line m_index].
    replace (m_line (k_mark k1) + dl <? m_line m + dl) with (m_line (k_mark k1) <? m_line m) by (apply eq_true_iff_eq; rewrite !N.ltb_lt; lia).
    replace (m_index (k_mark k1) + di + 1024 <? m_index m + di) with (m_index (k_mark k1) + 1024 <? m_index m) by (apply eq_true_iff_eq; rewrite !N.ltb_lt; lia).
    destruct (_ || _); [|constructor; [split; [congruence|auto]|exact IH]].
    destruct (k_required k1); [reflexivity|]. constructor; [|exact IH]. split; [reflexivity|discriminate].
  - constructor; [|exact IH]. split; [congruence|]. congruence.
Qed.
Lemma locs_stale : locs stale_simple_keys stale_simple_keys.
Proof.
  intros s1 s2 R. right. unfold stale_simple_keys. pose proof (stale_rel (smark s1) _ _ (r_keys _ _ R)) as K. rewrite (r_mark _ _ R).
  destruct (stale (smark s1) (s_keys s1)), (stale (mm (smark s1)) (s_keys s2)); try contradiction; cbn.
  - split; [reflexivity|]. rel.
  - rewrite K. reflexivity.
Qed.
Lemma locs_remove : locs remove_simple_key remove_simple_key.
Proof.
  intros s1 s2 R. right. unfold remove_simple_key. rewrite (r_mark _ _ R). pose proof (r_keys _ _ R) as K. inversion K as [|k1 k2 ks1 ks2 [K1 K2] F E1 E2]; [exact I|].
  rewrite K1. destruct (k_possible k1) eqn:P; cbn [andb].
  - destruct (K2 eq_refl) as (Q1 & Q2 & Q3). rewrite Q1. destruct (k_required k1); cbn; [rewrite Q3; reflexivity|]. split; [reflexivity|]. rel. constructor; [split; [reflexivity|discriminate]|exact F].
  - split; [reflexivity|]. rel. constructor; [split; [reflexivity|discriminate]|exact F].
Qed.
Lemma locs_decrease : locs decrease_flow_level decrease_flow_level.
Proof.
  intros s1 s2 R. right. unfold decrease_flow_level. rewrite (r_flow _ _ R). destruct (_ =? _); [split; [reflexivity|exact R]|].
  pose proof (r_keys _ _ R) as K. inversion K as [|k1 k2 ks1 ks2 K1 F E1 E2]; [exact I|]. split; [reflexivity|]. rel.
Qed.
Lemma unroll_rel m c : forall is i q, unroll (mm m) c i is (map mt q) = match unroll m c i is q with Some (i', is', q') => Some (i', is', map mt q') | None => None end.
Proof.
  induction is as [|j r IH]; intros i q; cbn [unroll]; destruct (c <? i)%Z; auto. rewrite <- IH, map_app. reflexivity.
Qed.
Lemma locs_unroll c : locs (unroll_indent c) (unroll_indent c).
Proof.
  intros s1 s2 R. right. unfold unroll_indent. rewrite (r_in_flow _ _ R), (r_mark _ _ R), (r_indent _ _ R), (r_indents _ _ R), (r_tokens _ _ R), unroll_rel.
  destruct (in_flow s1); [split; [reflexivity|exact R]|]. destruct (unroll _ _ _ _ _) as [[[i is] q]|]; [|exact I]. split; [reflexivity|]. rel.
Qed.
Create HintDb ls discriminated.
#[local] Hint Resolve locs_allow locs_enqueue locs_insert locs_stale locs_remove locs_decrease locs_unroll locs_bad : ls.
Ltac ls1 :=
  match goal with
  | |- locs (sbind get _) (sbind get _) => refine (locs_get _ _ _); intros ? ? ?
  | |- locs (sbind ?m1 ?k1) (sbind ?m2 ?k2) => refine (locs_bind m1 m2 k1 k2 _ _ _); [|solve [shr]|]
  | |- locs (sret ?a) (sret _) => exact (locs_ret a)
  | |- locs (serror ?o ?p) (serror _ _) => exact (locs_error o p)
  | |- locs (lift ?m) (lift _) => refine (locs_lift m _ _)
  | |- locs (if ?b then _ else _) _ => destruct b
  | |- locs (match ?x with _ => _ end) _ => destruct x
  | |- forall _, _ => let a := fresh "a" in intros a; split_all a; mvs
  | |- _ => solve [auto with ls]
  end.
Ltac flds R := rewrite ?(r_in_flow _ _ R), ?(r_mark _ _ R), ?(r_indent _ _ R), ?(r_allowed _ _ R), ?(r_flow _ _ R), ?(r_enc _ _ R), ?(r_started _ _ R).
Ltac ls := repeat (ls1; repeat match goal with R : srel _ _ |- locs _ _ => progress (flds R) end).
Lemma locs_save : locs save_simple_key save_simple_key.
Proof.
  unfold save_simple_key. refine (locs_get _ _ _). intros s1 s2 R. flds R. cbn [move_mark m_column]. destruct (s_allowed s1); [|exact (locs_ret tt)].
  refine (locs_bind _ _ _ _ locs_remove _ _); [shr|]. intros []. apply locs_modify. intros u1 u2 R'. destruct R'; constructor; cbn; auto.
  constructor; [|destruct r_keys0; cbn; auto]. split; [reflexivity|]. intros _. cbn. split; [reflexivity|]. split; [|reflexivity].
  rewrite (r_parsed _ _ R), (r_tokens _ _ R). unfold nlen. rewrite map_length. lia.
Qed.
Lemma locs_increase : locs increase_flow_level increase_flow_level.
Proof.
  unfold increase_flow_level. ls. apply locs_modify. intros u1 u2 R'. destruct R'; constructor; cbn; auto; [congruence|].
  constructor; [split; [reflexivity|discriminate]|exact r_keys0].
Qed.
Lemma locs_roll c n t m : locs (roll_indent c n t m) (roll_indent c (option_map (fun n => n + dp) n) t (mm m)).
Proof.
  unfold roll_indent. ls.
  - apply locs_modify. intros u1 u2 R'. destruct R'; constructor; cbn; auto. congruence.
  - exact (locs_insert n (mkToken t m m false)).
  - exact (locs_enqueue (mkToken t m m false)).
Qed.
#[local] Hint Resolve locs_save locs_increase locs_roll : ls.
Lemma locs_stream_start : locs fetch_stream_start fetch_stream_start.
Proof.
  unfold fetch_stream_start. refine (locs_bind _ _ _ _ _ _ _); [|shr|].
  - apply locs_modify. intros u1 u2 R'. destruct R'; constructor; cbn; auto. constructor; [split; [reflexivity|discriminate]|exact r_keys0].
  - intros []. ls. exact (locs_enqueue (mkToken (TStreamStart (s_enc s1)) (smark s1) (smark s1) false)).
Qed.
Lemma locs_reset : locs reset_block reset_block. Proof. unfold reset_block. ls. Qed.
#[local] Hint Resolve locs_stream_start locs_reset : ls.
Lemma locs_chars n t : locs (fetch_chars n t) (fetch_chars n t).
Proof. unfold fetch_chars. ls; [exact (l_skip_n X Y di dl tails n)|]. exact (locs_enqueue (mkToken t (smark s1) (smark s0) false)). Qed.
#[local] Hint Resolve locs_chars : ls.
Lemma locs_block_start p t : locs (block_start p t) (block_start p t).
Proof. unfold block_start. ls. exact (locs_roll (m_column (smark s1)) None t (smark s1)). Qed.
#[local] Hint Resolve locs_block_start : ls.
Lemma locs_value : locs fetch_value fetch_value.
Proof.
  unfold fetch_value. refine (locs_get _ _ _). intros s1 s2 R. refine (locs_bind _ _ _ _ _ _ _); [|shr|intros []; apply locs_chars].
  pose proof (r_keys _ _ R) as K. inversion K as [|k1 k2 ks1 ks2 [K1 K2] F E1 E2]; [apply locs_bad|]. rewrite K1. destruct (k_possible k1) eqn:P.
  - destruct (K2 eq_refl) as (Q1 & Q2 & Q3). rewrite Q1, Q2, Q3. cbn [move_mark m_column]. ls.
    + exact (locs_insert (k_number k1) (mkToken TKey (k_mark k1) (k_mark k1) false)).
    + exact (locs_roll (m_column (k_mark k1)) (Some (k_number k1)) TBlockMapStart (k_mark k1)).
    + apply locs_modify. intros u1 u2 R'. destruct R'; constructor; cbn; auto. constructor; [split; [reflexivity|discriminate]|exact F].
  - flds R. ls.
Qed.
#[local] Hint Resolve locs_value : ls.
Lemma loc_cache n : locp X Y di dl 0 (cache n) (cache n).
Proof. apply looks_locp, look_cache. Qed.
#[local] Hint Resolve l_directive l_anchor l_tag l_block_scalar l_flow_scalar l_plain_scalar loc_force_line loc_cache l_to_next l_choose : ls.
#[local] Hint Resolve tails : ls.
Lemma locs_branch b : locs (fetch_branch b) (fetch_branch b).
Proof.
  destruct b; cbn [fetch_branch]; unfold fetch_stream_end, fetch_directive, fetch_document_indicator, fetch_flow_collection_start, fetch_flow_collection_end, fetch_flow_entry,
    fetch_block_entry, fetch_key, fetch_anchor, fetch_tag, fetch_block_scalar, fetch_flow_scalar, fetch_plain_scalar; ls.
  - exact (locs_enqueue (mkToken TStreamEnd (smark s1) (smark s1) false)).
  - intros s1 s2 R. right. cbn. rewrite (r_mark _ _ R). reflexivity.
Qed.
#[local] Hint Resolve locs_branch : ls.
Lemma locs_next : locs fetch_next_token fetch_next_token.
Proof.
  unfold fetch_next_token. ls.
Qed.

(* yaml_parser_fetch_more_tokens *)
Lemma may_be_key s1 s2 : srel s1 s2 -> head_may_be_key s2 = head_may_be_key s1.
Proof.
  intros R. unfold head_may_be_key. rewrite (r_parsed _ _ R). pose proof (r_keys _ _ R) as F. induction F as [|k1 k2 ks1 ks2 [K1 K2] F IH]; [reflexivity|].
  cbn [existsb]. rewrite IH, K1. f_equal. destruct (k_possible k1); [|reflexivity]. destruct (K2 eq_refl) as (_ & -> & _). cbn [andb].
  apply eq_true_iff_eq. rewrite !N.eqb_eq. lia.
Qed.
Lemma agrees_fuel {A} {_ : Moves A} (r : sres A) : agrees r SFuel.
Proof. destruct r; exact I. Qed.
Lemma locs_more n1 : forall n2, locs (fetch_more_n n1) (fetch_more_n n2).
Proof.
  induction n1 as [|n1 IH]; intros n2 s1 s2 R; [right; exact I|]. destruct n2 as [|n2]; [right; apply agrees_fuel|].
  unfold bs. cbn [fetch_more_n]. refine (bs_bind _ _ _ _ s1 s2 _ _ _).
  - rewrite (r_tokens _ _ R). destruct (s_tokens s1) as [|t q]; cbn [map]; [exact (locs_ret true s1 s2 R)|].
    refine (locs_bind _ _ _ _ locs_stale _ _ s1 s2 R); [shr|]. intros []. refine (locs_get _ _ _). intros u1 u2 R'. rewrite (may_be_key _ _ R'). exact (locs_ret (head_may_be_key u1)).
  - intros []; [apply shs_bind; [apply shs_next|intros _; apply shs_more]|shr].
  - intros []; mvs.
    + refine (locs_bind _ _ _ _ locs_next _ _); [intros _; apply shs_more|]. intros []. apply IH.
    + apply locs_modify. intros u1 u2 R'. destruct R'; constructor; cbn; auto.
Qed.
(* yaml_parser_scan *)
Definition scan_hit (r : scan_out) : Prop := apart X Y /\ match r with ScanToken _ s => (slen s <= length X)%nat | ScanNothing _ => False | _ => True end.
Definition scan_agree (r1 r2 : scan_out) : Prop :=
  match r1, r2 with
  | ScanToken t1 s1, ScanToken t2 s2 => t2 = mt t1 /\ srel s1 s2
  | ScanNothing s1, ScanNothing s2 => srel s1 s2
  | ScanFail s1, ScanFail s2 => s_error s2 = option_map (move_error di dl) (s_error s1)
  | ScanBad, _ | ScanFuel, _ | _, ScanBad | _, ScanFuel => True
  | _, _ => False
  end.
Lemma deep_rel s1 s2 : srel s1 s2 -> is_deep s2 = is_deep s1.
Proof. intros R. unfold is_deep. rewrite (r_indents _ _ R), (r_nest _ _ R), (r_flow _ _ R). reflexivity. Qed.
Lemma scan_both s1 s2 : srel s1 s2 -> scan_hit (scan s1) \/ scan_agree (scan s1) (scan s2).
Proof.
  intros R. unfold scan. rewrite (r_ended _ _ R), (r_error _ _ R), (r_avail _ _ R). replace (match option_map (move_error di dl) (s_error s1) with Some _ => true | None => false end) with (match s_error s1 with Some _ => true | None => false end) by (destruct (s_error s1); reflexivity).
  destruct (_ || _); [right; exact R|].
  assert (K : hits (if s_avail s1 then SOk tt s1 else fetch_more_tokens s1) \/ agrees (if s_avail s1 then SOk tt s1 else fetch_more_tokens s1) (if s_avail s1 then SOk tt s2 else fetch_more_tokens s2)).
  { destruct (s_avail s1); [right; split; [reflexivity|exact R]|]. exact (locs_more (length (c_text (s_cur s1)) + 3) (length (c_text (s_cur s2)) + 3) s1 s2 R). }
  destruct K as [[N K]|K].
  - left. split; [exact N|]. destruct (if s_avail s1 then SOk tt s1 else fetch_more_tokens s1) as [a s| | |]; auto. destruct (s_tokens s); auto.
  - right. destruct (if s_avail s1 then SOk tt s1 else fetch_more_tokens s1) as [a1 u1|e1| |]; destruct (if s_avail s1 then SOk tt s2 else fetch_more_tokens s2) as [a2 u2|e2| |]; cbn in K; try contradiction; try exact I.
    + destruct K as [_ K]. rewrite (r_tokens _ _ K). destruct (s_tokens u1) as [|t q] eqn:Eq; [exact I|]. cbn [map scan_agree]. rewrite (deep_rel _ _ K). split; [reflexivity|].
      destruct K. constructor; cbn; auto; [congruence|lia].
    + destruct (s_tokens u1); exact I.
    + destruct (s_tokens u1); exact I.
    + subst e2. reflexivity.
Qed.
End S.
