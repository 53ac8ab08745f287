(* A node where a key is required is a key: the invariant of the token queue. *)
From Verif Require Import Base ReaderModel Utf8Spec CharSpec Types CursorModel ScanModel ScannerModel CursorProofs ScanProofs ScanQuoted
  ScannerSpec ScannerInv ScannerFetch ScannerBranch ScannerBlock ScannerLoop ScannerFinal RequiredSpec RequiredLine.

Section S.
Variable T : list N.
Notation core := (core T).
Notation at_branch := (at_branch T).
Notation ink := (ink T).
Notation ats := (ats T).

(* the token with number [n] has to become a key and may still do so *)
Definition pending (n : N) (ks : list skey) : Prop :=
  exists k, In k ks /\ k_possible k = true /\ k_required k = true /\ k_number k = n.

Record base (all : list token) (i : Z) (is : list Z) (ks : list skey) : Prop := {
  x_cols : map Z.of_N (open_columns all) ++ [(-1)%Z] = i :: is;
  x_req : forall a x b, all = a ++ x :: b -> at_key_place T a x -> after_key a x \/ pending (nlen a) ks;
  x_keys : forall k, In k ks -> k_possible k = true -> nth (N.to_nat (m_index (k_mark k))) T 0 <> 0x20
     /\ forall a x b, all = a ++ x :: b -> k_number k < nlen a -> m_index (k_mark k) < m_index (t_start x) }.
Definition allow_ok (s : sc) : Prop := s_flow s = 0 -> (0 <= s_indent s)%Z -> ink (smark s) \/ s_allowed s = true.

Lemma open_app a b : open_columns (a ++ b) = fold_left open_after b (open_columns a).
Proof. unfold open_columns. apply fold_left_app. Qed.
Lemma open_quiet b : Forall (fun x => is_block_token x = false) b -> forall st, fold_left open_after b st = st.
Proof.
  induction 1 as [|x b H F IH]; intros st; [reflexivity|]. cbn [fold_left]. rewrite <- (IH st) at 2. f_equal.
  unfold open_after, is_block_token in *. destruct (t_tok x); auto; discriminate.
Qed.
Lemma quiet_plain L f b l : quiet L f l -> struct f b l -> Forall (fun x => is_block_token x = false) l.
Proof.
  revert f b. induction l as [|x l IH]; intros f b Q S; constructor.
  - cbn [quiet struct] in *. destruct Q as (Q1 & Q2 & _). destruct S as (_ & _ & S3 & _). destruct (is_block_token x) eqn:B; [|reflexivity].
    specialize (S3 eq_refl). subst f. assert (L = 0) by lia. subst L. specialize (Q2 eq_refl). unfold is_node_token, is_block_token in *. destruct (t_tok x); discriminate.
  - cbn [quiet struct] in *. eapply IH; [apply Q|apply S].
Qed.

Lemma split_snoc {A} (all : list A) y a x b : all ++ [y] = a ++ x :: b ->
  (a = all /\ x = y /\ b = []) \/ exists b', all = a ++ x :: b' /\ b = b' ++ [y].
Proof.
  intros E. destruct b as [|z b] using rev_ind.
  - apply app_inj_tail in E as [-> ->]. auto.
  - right. rewrite app_comm_cons, app_assoc in E. apply app_inj_tail in E as [-> ->]. eauto.
Qed.

Lemma base_snoc all x i is ks i' is' ks' :
  base all i is ks ->
  map Z.of_N (open_after (open_columns all) x) ++ [(-1)%Z] = i' :: is' ->
  (forall n, pending n ks -> pending n ks') ->
  (at_key_place T all x -> pending (nlen all) ks') ->
  (forall k, In k ks' -> k_possible k = true -> (In k ks /\ m_index (k_mark k) < m_index (t_start x)) \/
     (k_number k = nlen all /\ nth (N.to_nat (m_index (k_mark k))) T 0 <> 0x20)) ->
  base (all ++ [x]) i' is' ks'.
Proof.
  intros [H1 H2 H3] C P R K. constructor.
  - rewrite open_app. exact C.
  - intros a y b E M. destruct (split_snoc _ _ _ _ _ E) as [(-> & -> & ->)|(b' & -> & ->)]; [right; auto|].
    destruct (H2 _ _ _ eq_refl M) as [H|H]; [left; exact H|right; auto].
  - intros k I Pk. destruct (K k I Pk) as [[I' L]|[E N]].
    + destruct (H3 k I' Pk) as [N B]. split; [exact N|]. intros a y b E Lt. destruct (split_snoc _ _ _ _ _ E) as [(-> & -> & ->)|(b' & Ea & ->)]; [exact L|].
      eapply B; eauto.
    + split; [exact N|]. intros a y b Ea Lt. destruct (split_snoc _ _ _ _ _ Ea) as [(-> & -> & ->)|(b' & Eb & ->)]; [lia|].
      subst all. rewrite E, nlen_app in Lt. lia.
Qed.
Lemma base_keys all i is ks ks' : base all i is ks -> (forall n, pending n ks -> pending n ks') ->
  (forall k, In k ks' -> k_possible k = true -> In k ks) -> base all i is ks'.
Proof.
  intros [H1 H2 H3] P K. constructor; [exact H1| |].
  - intros a x b E M. destruct (H2 _ _ _ E M) as [H|H]; auto.
  - intros k I Pk. apply H3; auto.
Qed.

(* --- partial correctness --- *)
Definition pw {A} (m : sm A) (s : sc) (Q : A -> sc -> Prop) : Prop := match m s with SOk a s' => Q a s' | _ => True end.
Lemma pw_bind {A B} (m : sm A) (k : A -> sm B) s Q : pw m s (fun a s' => pw (k a) s' Q) -> pw (sbind m k) s Q.
Proof. unfold pw, sbind. destruct (m s); auto. Qed.
Lemma pw_lift {A} (m : cm A) s (Q : A -> sc -> Prop) : (forall a c, m (s_cur s) = COk a c -> Q a (set_cur s c)) -> pw (lift m) s Q.
Proof. unfold pw, lift. destruct (m (s_cur s)); auto. Qed.
Lemma pw_mono {A} (m : sm A) s (Q Q' : A -> sc -> Prop) : pw m s Q -> (forall a s', Q a s' -> Q' a s') -> pw m s Q'.
Proof. unfold pw. destruct (m s); auto. Qed.
Lemma wp_ok {A} (m : cm A) c Q E a c' : wp m c Q E -> m c = COk a c' -> Q a c'.
Proof. unfold wp. intros H E'. rewrite E' in H. exact H. Qed.
Lemma swp_ok {A} (m : sm A) s Q E a s' : swp m s Q E -> m s = SOk a s' -> Q a s'.
Proof. unfold swp. intros H E'. rewrite E' in H. exact H. Qed.

Lemma pending_clear s n : (forall k ks, s_keys s = k :: ks -> k_possible k && k_required k = false) -> pending n (s_keys s) -> pending n (s_keys (clear_top s)).
Proof.
  intros H (k & I & P & R & E). unfold clear_top. cbn. destruct (s_keys s) as [|k0 ks]; [destruct I|]. destruct I as [->|I].
  - specialize (H _ _ eq_refl). rewrite P, R in H. discriminate.
  - exists k. repeat split; auto. right. exact I.
Qed.
Lemma pw_remove s (Q : unit -> sc -> Prop) :
  ((forall n, pending n (s_keys s) -> pending n (s_keys (clear_top s))) -> Q tt (clear_top s)) -> pw remove_simple_key s Q.
Proof.
  intros H. unfold pw, remove_simple_key. destruct (s_keys s) as [|k ks] eqn:E; [exact I|]. destruct (k_possible k && k_required k) eqn:E1; [exact I|].
  assert (X : clear_top s = set_keys s (mkKey false (k_required k) (k_number k) (k_mark k) :: ks)) by (unfold clear_top; rewrite E; reflexivity).
  rewrite <- X. apply H. intros n. rewrite <- E. apply pending_clear. intros k' ks' Ek. rewrite E in Ek. injection Ek as <- <-. exact E1.
Qed.
Lemma clear_in s k : In k (s_keys (clear_top s)) -> k_possible k = true -> In k (s_keys s).
Proof. unfold clear_top. cbn. destruct (s_keys s) as [|k0 ks]; [auto|]. intros [<-|I]; [discriminate|right; exact I]. Qed.

Definition saved_keys (s : sc) (ks : list skey) : Prop :=
  (forall n, pending n (s_keys s) -> pending n ks) /\
  (s_allowed s = true -> s_flow s = 0 -> s_indent s = Z.of_N (m_column (smark s)) -> pending (s_parsed s + nlen (s_tokens s)) ks) /\
  (forall k, In k ks -> k_possible k = true -> In k (s_keys s) \/ (k_number k = s_parsed s + nlen (s_tokens s) /\ k_mark k = smark s)).
Lemma pw_save s (Q : unit -> sc -> Prop) : (forall ks, saved_keys s ks -> Q tt (set_keys s ks)) -> pw save_simple_key s Q.
Proof.
  intros H. unfold save_simple_key. apply pw_bind. unfold pw at 1, get. destruct (s_allowed s) eqn:Al.
  - apply pw_bind. apply pw_remove. intros P. unfold pw, modify.
    match goal with |- Q tt (set_keys (clear_top s) (?k :: ?r)) => assert (S : saved_keys s (k :: r)) end.
    { split; [|split].
      - intros n Pn. destruct (P n Pn) as (k & Ik & P1 & P2 & P3). exists k. repeat split; auto. right. unfold clear_top in *. cbn in *.
        destruct (s_keys s) as [|k0 ks]; [destruct Ik|]. destruct Ik as [<-|Ik]; [discriminate|exact Ik].
      - intros _ F I. eexists. split; [left; reflexivity|]. cbn. split; [reflexivity|]. split; [|reflexivity].
        unfold in_flow. rewrite F, I, Z.eqb_refl. reflexivity.
      - intros k [<-|Ik] Pk; [right; auto|left]. unfold clear_top in Ik. cbn in Ik. destruct (s_keys s) as [|k0 ks]; [destruct Ik|right; exact Ik]. }
    apply H in S. unfold clear_top in *. exact S.
  - unfold pw, sret. rewrite <- (set_keys_same s). apply H. split; [auto|]. split; [congruence|]. intros k I _. left. exact I.
Qed.

(* --- appending a token --- *)
Definition post (es : list token) (s : sc) : Prop :=
  base (es ++ s_tokens s) (s_indent s) (s_indents s) (s_keys s) /\ allow_ok s.
Definition here (es : list token) (s : sc) : Prop := base (es ++ s_tokens s) (s_indent s) (s_indents s) (s_keys s).
(* possible keys start before the cursor *)
Definition behind (s : sc) : Prop := forall k, In k (s_keys s) -> k_possible k = true -> m_index (k_mark k) < m_index (smark s).
Lemma core_behind sl es all s : core sl es all s -> behind s.
Proof.
  intros C k I P. destruct (keys_in _ _ _ _ _ (c_keys _ _ _ _ _ C) I P) as (L & _ & K & _).
  destruct (ko_pos _ _ _ _ _ _ _ _ K) as (t1 & _ & A & Ln). eapply adv_lt_index; eauto.
Qed.
Lemma core_ats sl es all s : core sl es all s -> ats (s_cur s).
Proof. intros C. apply (adv_text T). apply (c_pos _ _ _ _ _ C). Qed.

(* tokens that are neither block tokens nor possible keys *)
Lemma post_plain es s s' x : here es s -> behind s ->
  s_tokens s' = s_tokens s ++ [x] -> s_indent s' = s_indent s -> s_indents s' = s_indents s ->
  (forall n, pending n (s_keys s) -> pending n (s_keys s')) -> (forall k, In k (s_keys s') -> k_possible k = true -> In k (s_keys s)) ->
  m_index (t_start x) = m_index (smark s) -> is_block_token x = false -> is_node_token x = false \/ is_block_scalar x = true ->
  here es s'.
Proof.
  intros H B E1 E2 E3 P K S Nb Nn. unfold here. rewrite E1, E2, E3, app_assoc.
  eapply base_snoc; [exact H| |exact P| |].
  - pose proof (open_quiet [x] (Forall_cons _ Nb (Forall_nil _)) (open_columns (es ++ s_tokens s))) as O. cbn [fold_left] in O. rewrite O. apply (x_cols _ _ _ _ H).
  - intros (M1 & M2 & _). destruct Nn; congruence.
  - intros k I Pk. left. split; [auto|]. rewrite S. apply B; auto.
Qed.

Lemma cols_indent all i is ks x : base all i is ks -> hd_error (open_columns all) = Some x -> i = Z.of_N x.
Proof.
  intros [H _ _] E. destruct (open_columns all) as [|y r]; [discriminate|]. injection E as ->. cbn in H. injection H as <- _. reflexivity.
Qed.

(* tokens that may start a key *)
Lemma post_saved es all s s' x ks : core 0 es all s -> here es s -> allow_ok s -> saved_keys s ks ->
  nth 0 (ctext s) 0 <> 0x20 ->
  s_tokens s' = s_tokens s ++ [x] -> s_indent s' = s_indent s -> s_indents s' = s_indents s -> 
  (forall n, pending n ks -> pending n (s_keys s')) -> (forall k, In k (s_keys s') -> k_possible k = true -> In k ks) ->
  t_start x = smark s -> is_block_token x = false -> here es s'.
Proof.
  intros C H A (S1 & S2 & S3) Ch E1 E2 E3 E4 E4' St Nb. unfold here. rewrite E1, E2, E3, app_assoc.
  pose proof (c_all _ _ _ _ _ C) as CA.
  assert (EN : s_parsed s + nlen (s_tokens s) = nlen (es ++ s_tokens s)) by (rewrite (c_parsed _ _ _ _ _ C), nlen_app; lia).
  eapply base_snoc; [exact H| |intros n P; apply E4; apply S1; exact P| |].
  - pose proof (open_quiet [x] (Forall_cons _ Nb (Forall_nil _)) (open_columns (es ++ s_tokens s))) as O. cbn [fold_left] in O. rewrite O. apply (x_cols _ _ _ _ H).
  - intros (M1 & M2 & M3 & M4 & M5). rewrite St in M4, M5. rewrite <- EN. apply E4.
    assert (F : s_flow s = 0) by (rewrite (c_flow _ _ _ _ _ C), CA; exact M3).
    pose proof (cols_indent _ _ _ _ _ H M4) as Ei. apply S2; auto.
    destruct (A F) as [K|K]; [lia| |exact K]. destruct (ink_not_first _ _ K M5).
  - intros k I Pk. apply E4' in I; [|exact Pk]. destruct (S3 k I Pk) as [I'|[N M]].
    + left. split; [exact I'|]. rewrite St. eapply core_behind; eauto.
    + right. rewrite <- EN, M. split; [exact N|]. pose proof (core_ats _ _ _ _ C) as X. unfold smark. rewrite <- (hd_text _ _ X). exact Ch.
Qed.

Lemma pw_chars n t s (Q : unit -> sc -> Prop) : ats (s_cur s) -> nth 0 (ctext s) 0 <> 0x20 ->
  (forall c', ink (c_mark c') -> Q tt (set_tokens (set_cur s c') (s_tokens s ++ [mkToken t (smark s) (c_mark c') false]))) ->
  pw (fetch_chars (S n) t) s Q.
Proof.
  intros X H HQ. unfold fetch_chars. apply pw_bind. unfold pw at 1, get. apply pw_bind. apply pw_lift. intros u c' E.
  apply pw_bind. unfold pw at 1, get. unfold pw, enqueue, modify. cbn [s_tokens set_cur]. apply (HQ c').
  cbn [skip_n] in E. apply bind_ok in E as (u1 & c1 & E1 & E2). pose proof (skip_ink _ _ _ _ X H E1) as I1.
  destruct (lp_skip T _ _ _ X E1) as [X1 _]. destruct (lp_skip_n T n _ _ _ X1 E2) as [_ A]. eapply along_ink; eauto.
Qed.

(* --- the branches --- *)
Ltac pstart := unfold pw at 1, get.
Ltac pw1 := match goal with
  | |- pw (sbind _ _) _ _ => apply pw_bind
  | |- pw (sret _) _ _ => unfold pw, sret
  | |- pw get ?s ?Q => change (Q s s); cbv beta iota
  | |- pw (modify _) _ _ => unfold pw at 1, modify; cbv beta iota
  | |- pw (allow _) _ _ => unfold pw at 1, allow, modify; cbv beta iota
  | |- pw (enqueue _) _ _ => unfold pw at 1, enqueue, modify; cbv beta iota
  end.
Ltac pww := repeat pw1.

Lemma not_space es all s x : at_branch es all s -> nth 0 (ctext s) 0 = x -> x <> 0x20 -> nth 0 (ctext s) 0 <> 0x20.
Proof. congruence. Qed.

Lemma anchor_post es all s a : at_branch es all s -> here es s -> allow_ok s -> nth 0 (ctext s) 0 = 0x2A \/ nth 0 (ctext s) 0 = 0x26 ->
  pw (fetch_anchor a) s (fun _ s' => post es s').
Proof.
  intros B H A Z. pose proof (b_core _ _ _ _ B) as C. pose proof (core_ats _ _ _ _ C) as X.
  assert (Z1 : nth 0 (ctext s) 0 <> 0) by (destruct Z as [-> | ->]; discriminate).
  assert (Z2 : is_break (nth 0 (ctext s) 0) = false) by (destruct Z as [-> | ->]; reflexivity).
  assert (Z3 : nth 0 (ctext s) 0 <> 0x20) by (destruct Z as [-> | ->]; discriminate).
  unfold fetch_anchor. apply pw_bind, pw_save. intros ks S. pww. apply pw_lift. intros tk c' E. pww.
  assert (K : t_start tk = smark s /\ (length (c_text c') < length (ctext s))%nat /\ is_block_token tk = false).
  { refine (wp_ok _ _ (fun tk c' => t_start tk = smark s /\ (length (c_text c') < length (ctext s))%nat /\ is_block_token tk = false) _ _ _ _ E).
    eapply p_scan_anchor; [exact (branch_hold1 _ _ _ _ B)|exact Z1|exact Z2|]. intros tk' t' m' c'' P L TA K.
    split; [apply TA|]. split; [destruct P as [[-> _] _]; exact L|]. unfold is_block_token. destruct (t_tok tk'); tauto. }
  destruct K as (K1 & K2 & K3). split.
  - eapply (post_saved es all s _ tk ks); eauto; reflexivity.
  - intros _ _. left. change (ink (c_mark c')). refine (lp_ink T _ (s_cur s) tk c' (lp_anchor T a) X Z3 K2 E).
Qed.
Lemma tag_post es all s : at_branch es all s -> here es s -> allow_ok s -> nth 0 (ctext s) 0 = 0x21 ->
  pw fetch_tag s (fun _ s' => post es s').
Proof.
  intros B H A Z. pose proof (b_core _ _ _ _ B) as C. pose proof (core_ats _ _ _ _ C) as X.
  assert (Z3 : nth 0 (ctext s) 0 <> 0x20) by congruence.
  unfold fetch_tag. apply pw_bind, pw_save. intros ks S. pww. apply pw_lift. intros tk c' E. pww.
  assert (K : t_start tk = smark s /\ (length (c_text c') < length (ctext s))%nat /\ is_block_token tk = false).
  { refine (wp_ok _ _ (fun tk c' => t_start tk = smark s /\ (length (c_text c') < length (ctext s))%nat /\ is_block_token tk = false) _ _ _ _ E).
    eapply p_scan_tag; [exact (branch_hold1 _ _ _ _ B)|exact Z|]. intros tk' t' m' c'' P L TA K.
    split; [apply TA|]. split; [destruct P as [[-> _] _]; exact L|]. unfold is_block_token. destruct (t_tok tk'); tauto. }
  destruct K as (K1 & K2 & K3). split.
  - eapply (post_saved es all s _ tk ks); eauto; reflexivity.
  - intros _ _. left. refine (lp_ink T _ (s_cur s) tk c' (lp_tag T _) X Z3 K2 E).
Qed.
Lemma quoted_post es all s b : at_branch es all s -> here es s -> allow_ok s -> nth 0 (ctext s) 0 = 0x27 \/ nth 0 (ctext s) 0 = 0x22 ->
  pw (fetch_flow_scalar b) s (fun _ s' => post es s').
Proof.
  intros B H A Z. pose proof (b_core _ _ _ _ B) as C. pose proof (core_ats _ _ _ _ C) as X.
  assert (Z1 : nth 0 (ctext s) 0 <> 0) by (destruct Z as [-> | ->]; discriminate).
  assert (Z2 : is_break (nth 0 (ctext s) 0) = false) by (destruct Z as [-> | ->]; reflexivity).
  assert (Z3 : nth 0 (ctext s) 0 <> 0x20) by (destruct Z as [-> | ->]; discriminate).
  unfold fetch_flow_scalar. apply pw_bind, pw_save. intros ks S. pww. apply pw_lift. intros tk c' E. pww.
  assert (K : t_start tk = smark s /\ is_block_token tk = false).
  { refine (wp_ok _ _ (fun tk c' => t_start tk = smark s /\ is_block_token tk = false) _ _ _ _ E).
    eapply p_scan_flow_scalar; [exact (branch_hold1 _ _ _ _ B)|exact Z1|exact Z2|]. intros tk' t' m' c'' P L TA K.
    split; [apply TA|]. unfold is_block_token. destruct (t_tok tk'); tauto. }
  destruct K as (K1 & K3). split.
  - eapply (post_saved es all s _ tk ks); eauto; reflexivity.
  - intros _ _. left. exact (flow_scalar_ink T b (s_cur s) tk c' X E).
Qed.
Lemma plain_post es all s : at_branch es all s -> here es s -> allow_ok s ->
  plain_stop (in_flow s) (ctext s) = false -> nth 0 (ctext s) 0 <> 0x23 -> at_document_indicator (ctext s) (smark s) = false ->
  pw fetch_plain_scalar s (fun _ s' => post es s').
Proof.
  intros B H A Z1 Z2 Z3. pose proof (b_core _ _ _ _ B) as C. pose proof (core_ats _ _ _ _ C) as X.
  assert (Z4 : is_blankz (nth 0 (ctext s) 0) = false) by (unfold plain_stop in Z1; destruct (is_blankz _); [discriminate|reflexivity]).
  assert (Z5 : nth 0 (ctext s) 0 <> 0x20) by (intros Q; rewrite Q in Z4; discriminate).
  unfold fetch_plain_scalar. apply pw_bind, pw_save. intros ks S. pww. apply pw_lift. intros [tk lb] c' E. cbn [fst snd].
  assert (K : t_start tk = smark s /\ (length (c_text c') < length (ctext s))%nat /\ is_block_token tk = false).
  { refine (wp_ok _ _ (fun r c' => t_start (fst r) = smark s /\ (length (c_text c') < length (ctext s))%nat /\ is_block_token (fst r) = false) _ _ _ _ E).
    eapply p_scan_plain_scalar; [exact (branch_hold1 _ _ _ _ B)|exact Z1|exact Z2|exact Z3|]. intros tk' lb' t' m' c'' P L TA K.
    split; [apply TA|]. split; [destruct P as [[-> _] _]; exact L|]. unfold is_block_token. cbn. destruct (t_tok tk'); tauto. }
  destruct K as (K1 & K2 & K3).
  assert (K4 : lb = true \/ ink (c_mark c')).
  { refine (plain_ink T _ _ (s_cur s) tk lb c' X _ _ K2 E); fold (ctext s); clear -Z4; unfold is_blankz, is_blank, is_breakz in *;
      destruct (is_break _), (is_space _), (is_tab _); cbn in *; auto; discriminate. }
  destruct lb; pww; (split; [eapply (post_saved es all s _ tk ks); eauto; reflexivity|]); intros _ _; [right; reflexivity|left].
  destruct K4 as [K4|K4]; [discriminate|exact K4].
Qed.
Lemma block_scalar_post es all s lit : at_branch es all s -> here es s -> nth 0 (ctext s) 0 = 0x7C \/ nth 0 (ctext s) 0 = 0x3E ->
  pw (fetch_block_scalar lit) s (fun _ s' => post es s').
Proof.
  intros B H Z. pose proof (b_core _ _ _ _ B) as C.
  assert (Z1 : nth 0 (ctext s) 0 <> 0) by (destruct Z as [-> | ->]; discriminate).
  assert (Z2 : is_break (nth 0 (ctext s) 0) = false) by (destruct Z as [-> | ->]; reflexivity).
  unfold fetch_block_scalar. apply pw_bind, pw_remove. intros P. pww. apply pw_lift. intros tk c' E. pww.
  assert (K : t_start tk = smark s /\ is_block_token tk = false /\ is_block_scalar tk = true).
  { refine (wp_ok _ _ (fun tk c' => t_start tk = smark s /\ is_block_token tk = false /\ is_block_scalar tk = true) _ _ _ _ E).
    eapply p_scan_block_scalar; [exact (branch_hold1 _ _ _ _ B)|exact Z1|exact Z2|]. intros tk' t' m' c'' P' L TA K.
    split; [apply TA|]. unfold is_block_token, is_block_scalar. destruct (t_tok tk'); try tauto. subst. destruct lit; auto. }
  destruct K as (K1 & K2 & K3). split; [|intros _ _; right; reflexivity].
  eapply (post_plain es s _ tk); eauto; try reflexivity; [eapply core_behind; exact C| |rewrite K1; reflexivity].
  intros k I Pk. eapply clear_in; eauto.
Qed.
Lemma flow_entry_post es all s : at_branch es all s -> here es s -> nth 0 (ctext s) 0 = 0x2C -> pw fetch_flow_entry s (fun _ s' => post es s').
Proof.
  intros B H Z. pose proof (b_core _ _ _ _ B) as C. unfold fetch_flow_entry. apply pw_bind, pw_remove. intros P. pww.
  apply pw_chars; [exact (core_ats _ _ _ _ C)|unfold ctext in *; cbn; congruence|]. intros c' I. split; [|intros _ _; left; exact I].
  eapply (post_plain es s); try reflexivity; auto; [eapply core_behind; exact C|]. intros k Ik Pk. eapply clear_in; eauto.
Qed.
Lemma flow_end_post es all s t : at_branch es all s -> here es s -> nth 0 (ctext s) 0 = 0x5D \/ nth 0 (ctext s) 0 = 0x7D ->
  t = TFlowSeqEnd \/ t = TFlowMapEnd -> pw (fetch_flow_collection_end t) s (fun _ s' => post es s').
Proof.
  intros B H Z Ht. pose proof (b_core _ _ _ _ B) as C. assert (Z3 : nth 0 (ctext s) 0 <> 0x20) by (destruct Z as [-> | ->]; discriminate).
  unfold fetch_flow_collection_end. apply pw_bind, pw_remove. intros P. apply pw_bind.
  assert (Fin : forall s1, s_cur s1 = s_cur s -> s_tokens s1 = s_tokens s -> s_indent s1 = s_indent s -> s_indents s1 = s_indents s ->
    (forall n, pending n (s_keys s) -> pending n (s_keys s1)) -> (forall k, In k (s_keys s1) -> k_possible k = true -> In k (s_keys s)) ->
    pw (allow false ~;; fetch_chars 1 t) s1 (fun _ s' => post es s')).
  { intros s1 E1 E2 E3 E4 E5 E6. pww. apply pw_chars; [cbn; rewrite E1; exact (core_ats _ _ _ _ C)|unfold ctext in *; cbn; rewrite E1; exact Z3|].
    intros c' I. split; [|intros _ _; left; exact I]. eapply (post_plain es s); cbn [s_tokens set_tokens set_cur set_allowed s_indent s_indents s_keys]; auto.
    - eapply core_behind; exact C.
    - rewrite E2. reflexivity.
    - cbn. unfold smark. cbn. rewrite E1. reflexivity.
    - destruct Ht as [-> | ->]; reflexivity.
    - left. destruct Ht as [-> | ->]; reflexivity. }
  unfold pw at 1, decrease_flow_level. change (s_flow (clear_top s)) with (s_flow s). destruct (s_flow s =? 0).
  - apply Fin; auto. intros k Ik Pk. eapply clear_in; eauto.
  - destruct (core_top _ _ _ _ _ C) as (k & ks & Ek & _). unfold clear_top in *. rewrite Ek in *. cbn [s_keys set_keys] in *.
    apply Fin; try reflexivity.
    + intros n Pn. cbn. destruct (P n Pn) as (k' & [<-|Ik] & P1 & P2 & P3); [discriminate|]. exists k'. auto.
    + intros k' Ik _. right. exact Ik.
Qed.
Lemma flow_start_post es all s t : at_branch es all s -> here es s -> allow_ok s -> nth 0 (ctext s) 0 = 0x5B \/ nth 0 (ctext s) 0 = 0x7B ->
  t = TFlowSeqStart \/ t = TFlowMapStart -> pw (fetch_flow_collection_start t) s (fun _ s' => post es s').
Proof.
  intros B H A Z Ht. pose proof (b_core _ _ _ _ B) as C. assert (Z3 : nth 0 (ctext s) 0 <> 0x20) by (destruct Z as [-> | ->]; discriminate).
  unfold fetch_flow_collection_start. apply pw_bind, pw_save. intros ks S. apply pw_bind. unfold increase_flow_level. pww.
  destruct (_ =? INT_MAX); [exact I|]. pww. apply pw_chars; [exact (core_ats _ _ _ _ C)|exact Z3|]. intros c' In'. split; [|intros _ _; right; reflexivity].
  eapply (post_saved es all s _ _ ks); eauto; try reflexivity; cbn [s_keys set_tokens set_cur set_allowed set_flow set_keys].
  - intros n (k & Ik & P). exists k. split; [right; exact Ik|exact P].
  - intros k [<-|Ik] Pk; [discriminate|exact Ik].
  - destruct Ht as [-> | ->]; reflexivity.
Qed.

(* opening a block collection at the cursor *)
Lemma pw_block_start es all s p t (Q : unit -> sc -> Prop) : at_branch es all s -> here es s -> is_start t ->
  (forall s1, here es s1 -> s_cur s1 = s_cur s -> s_keys s1 = s_keys s -> s_flow s1 = s_flow s -> s_parsed s1 = s_parsed s -> Q tt s1) -> pw (block_start p t) s Q.
Proof.
  intros B H Ht HQ. pose proof (b_core _ _ _ _ B) as C. unfold block_start. pww. destruct (in_flow s) eqn:F; [apply HQ; auto|].
  destruct (negb (s_allowed s)); [exact I|]. unfold roll_indent. pww. rewrite F. destruct (_ <? _)%Z; [|apply HQ; auto].
  destruct (_ <? _); [exact I|]. pww. apply HQ; try reflexivity. unfold here. cbn [s_tokens set_tokens set_indents s_indent s_indents s_keys]. rewrite app_assoc.
  eapply base_snoc; [exact H| |auto| |].
  - unfold open_after. cbn [t_tok t_start]. destruct Ht as [-> | ->]; cbn [map app]; rewrite (x_cols _ _ _ _ H); reflexivity.
  - intros (M & _). exfalso. unfold is_node_token in M. cbn in M. destruct Ht as [-> | ->]; discriminate.
  - intros k Ik Pk. left. split; [exact Ik|]. cbn. eapply core_behind; eauto.
Qed.
Lemma entry_post es all s : at_branch es all s -> here es s -> nth 0 (ctext s) 0 = 0x2D -> pw fetch_block_entry s (fun _ s' => post es s').
Proof.
  intros B H Z. pose proof (b_core _ _ _ _ B) as C. unfold fetch_block_entry. apply pw_bind.
  eapply pw_block_start; [exact B|exact H|left; reflexivity|]. intros s1 H1 E1 E2 E3 E4. apply pw_bind, pw_remove. intros P. pww.
  apply pw_chars; [cbn; rewrite E1; exact (core_ats _ _ _ _ C)|unfold ctext in *; cbn; rewrite E1; congruence|]. intros c' I. split; [|intros _ _; left; exact I].
  eapply (post_plain es s1); try reflexivity; auto.
  - intros k Ik Pk. unfold smark. rewrite E1. rewrite E2 in Ik. eapply core_behind; eauto.
  - intros k Ik Pk. eapply clear_in; eauto.
Qed.
Lemma key_post es all s : at_branch es all s -> here es s -> nth 0 (ctext s) 0 = 0x3F -> pw fetch_key s (fun _ s' => post es s').
Proof.
  intros B H Z. pose proof (b_core _ _ _ _ B) as C. unfold fetch_key. apply pw_bind.
  eapply pw_block_start; [exact B|exact H|right; reflexivity|]. intros s1 H1 E1 E2 E3 E4. apply pw_bind, pw_remove. intros P. pww.
  apply pw_chars; [cbn; rewrite E1; exact (core_ats _ _ _ _ C)|unfold ctext in *; cbn; rewrite E1; congruence|]. intros c' I. split; [|intros _ _; left; exact I].
  eapply (post_plain es s1); try reflexivity; auto.
  - intros k Ik Pk. unfold smark. rewrite E1. rewrite E2 in Ik. eapply core_behind; eauto.
  - intros k Ik Pk. eapply clear_in; eauto.
Qed.

(* closing block collections *)
Lemma base_unroll es ks m col : (forall k, In k ks -> k_possible k = true -> m_index (k_mark k) < m_index m) ->
  forall is i q i' is' q', unroll m col i is q = Some (i', is', q') -> base (es ++ q) i is ks -> base (es ++ q') i' is' ks /\ (i' <= col)%Z.
Proof.
  intros Bh. induction is as [|j r IH]; intros i q i' is' q' U H; cbn [unroll] in U; destruct (Z.ltb_spec col i) as [Lt|Ge].
  - discriminate.
  - injection U as <- <- <-. auto.
  - eapply IH; [exact U|]. rewrite app_assoc. eapply base_snoc; [exact H| |auto| |].
    + pose proof (x_cols _ _ _ _ H) as X. unfold open_after. cbn [t_tok]. destruct (open_columns (es ++ q)) as [|y l]; cbn in *; [discriminate|].
      injection X as _ X. exact X.
    + intros (M & _). discriminate.
    + intros k Ik Pk. left. split; [exact Ik|]. cbn. auto.
  - injection U as <- <- <-. auto.
Qed.
Lemma pw_unroll es s col (Q : unit -> sc -> Prop) : here es s -> behind s ->
  (forall s1, here es s1 -> s_cur s1 = s_cur s -> s_keys s1 = s_keys s -> s_flow s1 = s_flow s -> s_allowed s1 = s_allowed s ->
     (s_flow s = 0 -> (s_indent s1 <= col)%Z) -> (s_indent s1 <= s_indent s)%Z -> Q tt s1) ->
  pw (unroll_indent col) s Q.
Proof.
  intros H Bh HQ. unfold pw, unroll_indent. destruct (in_flow s) eqn:F.
  - apply HQ; auto; [|lia]. intros F0. unfold in_flow in F. rewrite F0 in F. discriminate.
  - destruct (unroll _ _ _ _ _) as [[[i is] q]|] eqn:U; [|exact I]. destruct (base_unroll es (s_keys s) (smark s) col Bh _ _ _ _ _ _ U H) as [H1 L].
    apply HQ; try reflexivity; [exact H1|intros _; exact L|]. cbn.
    pose proof (x_cols _ _ _ _ H1) as X1. clear -U. revert U. generalize (s_tokens s) as q0. generalize (s_indent s) as i0. 
    assert (G : forall is0 i0 q0, unroll (smark s) col i0 is0 q0 = Some (i, is, q) -> (i <= i0)%Z \/ (col < i0)%Z /\ (i <= col)%Z).
    { induction is0 as [|j r IH]; intros i0 q0; cbn [unroll]; destruct (Z.ltb_spec col i0) as [Lt|Ge]; try discriminate.
      - intros [= <- _ _]. left. lia.
      - intros U. destruct (IH _ _ U) as [K|K]; [|right; lia]. right. split; [lia|].
        clear -U. revert j q0 U. set (q1 := q). clearbody q1. 
        intros j q0. generalize (q0 ++ [mkToken TBlockEnd (smark s) (smark s) false]). clear q0. revert j.
        induction r as [|j' r IH]; intros j q2; cbn [unroll]; destruct (Z.ltb_spec col j); try discriminate.
        + intros [= <- _ _]. lia.
        + apply IH.
        + intros [= <- _ _]. lia.
      - intros [= <- _ _]. left. lia. }
    intros i0 q0 U. destruct (G _ _ _ U) as [K|K]; lia.
Qed.

(* --- an implicit key --- *)
Lemma line_span i : forall j, (i <= j)%nat -> m_line (position T i) <= m_line (position T j) /\
  (m_line (position T i) = m_line (position T j) -> m_column (position T j) + N.of_nat i = m_column (position T i) + N.of_nat j).
Proof.
  induction j as [|j IH]; intros L.
  - assert (i = O) by lia. subst i. split; lia.
  - destruct (Nat.eq_dec i (S j)) as [->|Ne]; [split; lia|]. destruct (IH ltac:(lia)) as [IH1 IH2].
    cbn [position]. destruct (ends_line T j); cbn [m_line m_column]; (split; [lia|]); intros E; [lia|]; specialize (IH2 E); lia.
Qed.
Lemma fpos_at m : fpos T m -> m = position T (N.to_nat (m_index m)).
Proof. intros F. apply fpos_position in F as (i & _ & ->). rewrite position_index, Nat2N.id. reflexivity. Qed.
(* a position on the line of an earlier character that is not a space *)
Lemma same_line_ink m1 m2 m3 : fpos T m1 -> fpos T m2 -> fpos T m3 -> m_index m1 < m_index m2 -> m_index m2 <= m_index m3 ->
  m_line m1 = m_line m3 -> nth (N.to_nat (m_index m1)) T 0 <> 0x20 -> ink m2.
Proof.
  intros F1 F2 F3 L1 L2 L H. exists (m_index m1). split; [|auto]. apply fpos_at in F1, F2, F3.
  destruct (line_span (N.to_nat (m_index m1)) (N.to_nat (m_index m2)) ltac:(lia)) as [A1 A2]. destruct (line_span (N.to_nat (m_index m2)) (N.to_nat (m_index m3)) ltac:(lia)) as [B1 _].
  rewrite <- F1, <- F2 in A1, A2. rewrite <- F2, <- F3 in B1. assert (E : m_line m1 = m_line m2) by lia. specialize (A2 E). lia.
Qed.
Lemma sorted_hi lo l hi : sorted lo l hi -> forall x, In x l -> m_index (t_start x) <= hi.
Proof.
  revert lo. induction l as [|y l IH]; intros lo H x I; [destruct I|]. cbn [sorted] in H. destruct H as (H1 & H2 & H3). destruct I as [->|I]; [|eapply IH; eauto].
  assert (G : forall lo l, sorted lo l hi -> lo <= hi).
  { clear. intros lo l. revert lo. induction l as [|z l IH]; intros lo H; cbn [sorted] in H; [exact H|]. destruct H as (H1 & H2 & H3). apply IH in H3. lia. }
  apply G in H3. lia.
Qed.
Lemma split_app {A} (l1 l2 a : list A) x b : l1 ++ l2 = a ++ x :: b ->
  (exists r, l1 = a ++ x :: r /\ b = r ++ l2) \/ (exists r, a = l1 ++ r /\ l2 = r ++ x :: b).
Proof.
  revert a. induction l1 as [|y l1 IH]; intros a E; cbn in E.
  - right. exists a. auto.
  - destruct a as [|z a]; cbn in E; injection E as -> E.
    + left. exists l1. subst b. auto.
    + destruct (IH _ E) as [(r & -> & ->)|(r & -> & ->)]; [left|right]; exists r; auto.
Qed.
Lemma keys_below K F b k ks k' : keys_ok K F b (k :: ks) -> k_possible k = true -> In k' ks -> k_possible k' = true -> k_number k' < k_number k.
Proof.
  intros H P I P'. inversion H; subst; [destruct I|]. destruct (H5 P) as (L & _ & _). destruct (keys_in _ _ _ _ _ H6 I P') as (? & _ & _ & L'). lia.
Qed.

Lemma base_insert es all s k ks a0 b0 ins i' is' : at_branch es all s -> base all (s_indent s) (s_indents s) (s_keys s) ->
  s_keys s = k :: ks -> k_possible k = true -> all = a0 ++ b0 -> nlen a0 = k_number k -> inserted s (k_mark k) ins i' is' ->
  base (a0 ++ ins ++ b0) i' is' (clear_key k :: ks).
Proof.
  intros B H Ek Pk Ea La Hi. pose proof (b_core _ _ _ _ B) as C. pose proof (c_keys _ _ _ _ _ C) as CK. rewrite Ek in CK, H.
  destruct (keys_top _ _ _ _ _ CK Pk) as [Nk KO]. destruct KO as [KP KL (tk & KT & KT') KPos KQ KI].
  assert (Na : N.to_nat (k_number k) = length a0) by (rewrite <- La; unfold nlen; lia).
  rewrite Na in *. rewrite Ea, skipn_all_app in KQ. rewrite Ea, nth_error_app2, Nat.sub_diag in KT by lia.
  destruct b0 as [|tk' b1]; [discriminate|]. injection KT as ->.
  assert (Nb : Forall (fun x => is_block_token x = false) (tk :: b1)).
  { pose proof (g_struct _ _ _ (c_good _ _ _ _ _ C)) as GS. rewrite Ea in GS. apply struct_app in GS as [_ GS].
    rewrite Ea, firstn_all_app in KL. unfold flow_depth in KL. rewrite KL in GS. eapply quiet_plain; eauto. }
  assert (Iins : forall x, In x ins -> is_node_token x = false /\ t_start x = k_mark k).
  { intros x I. destruct Hi as [(-> & _)|(-> & _)]; cbn in I; intuition (subst; auto). }
  assert (Nt : tk :: b1 <> []) by discriminate.
  assert (Mt : In tk all) by (rewrite Ea; apply in_mid).
  destruct (x_keys _ _ _ _ H k (or_introl eq_refl) Pk) as [Nsp Aft].
  (* what comes after the first token of the key is not the first thing on its line *)
  assert (NotFirst : forall r x b, tk :: b1 = r ++ x :: b -> r <> [] -> ink (t_start x)).
  { intros r x b E Nr. assert (Ix : In x all) by (rewrite Ea, E; apply in_app_iff; right; apply in_mid).
    pose proof (c_marks _ _ _ _ _ C) as CM. rewrite Forall_forall in CM. destruct (CM x Ix) as [Fx _].
    assert (Fk : fpos T (k_mark k)) by (destruct KPos as (t1 & A & _); exists t1; exact A).
    eapply (same_line_ink (k_mark k) _ (smark s)); auto.
    - eapply here_fpos; eauto.
    - apply (Aft (a0 ++ r) x b); [rewrite Ea, E, app_assoc; reflexivity|]. rewrite <- La, nlen_app. destruct r; [congruence|rewrite nlen_cons; lia].
    - eapply sorted_hi; [apply (c_sorted _ _ _ _ _ C)|exact Ix].
    - destruct (b_fresh _ _ _ _ B k) as [L _]; [rewrite Ek; left; reflexivity|exact Pk|exact L]. }
  constructor.
  - pose proof (x_cols _ _ _ _ H) as X. rewrite Ea, open_app, (open_quiet _ Nb) in X. rewrite open_app, fold_left_app, (open_quiet _ Nb).
    destruct Hi as [(-> & -> & ->)|(-> & _ & _ & -> & ->)]; [exact X|]. cbn [fold_left open_after map_tok key_tok t_tok t_start map app]. rewrite X. reflexivity.
  - intros a x b E M. destruct (split_app _ _ _ _ _ E) as [(r & E1 & E2)|(r & E1 & E2)].
    + destruct (x_req _ _ _ _ H a x (r ++ tk :: b1)) as [K|(k' & Ik & P1 & P2 & P3)]; auto.
      * rewrite Ea, E1, <- app_assoc. reflexivity.
      * right. exists k'. repeat split; auto. destruct Ik as [->|Ik]; [|right; exact Ik]. exfalso. rewrite <- La, E1, nlen_app, nlen_cons in P3. lia.
    + destruct (split_app _ _ _ _ _ E2) as [(r2 & E3 & E4)|(r2 & E3 & E4)].
      * exfalso. destruct M as (M & _). destruct (Iins x) as [K _]; [rewrite E3; apply in_mid|]. congruence.
      * destruct r2 as [|y r2].
        -- left. cbn in E4. injection E4 as -> ->. subst r a. rewrite app_nil_r in *. exists (a0 ++ removelast ins), (key_tok (k_mark k)).
           split; [|split; [split; reflexivity|cbn; congruence]]. rewrite <- app_assoc. f_equal. destruct Hi as [(-> & _)|(-> & _)]; reflexivity.
        -- exfalso. destruct M as (_ & _ & _ & _ & M). eapply ink_not_first; [|exact M]. eapply (NotFirst (y :: r2)); [exact E4|discriminate].
  - intros k' [<-|Ik] Pk'; [discriminate|]. destruct (x_keys _ _ _ _ H k' (or_intror Ik) Pk') as [N1 A1]. split; [exact N1|].
    pose proof (keys_below _ _ _ _ _ _ CK Pk Ik Pk') as Lt. intros a x b E L.
    destruct (split_app _ _ _ _ _ E) as [(r & E1 & E2)|(r & E1 & E2)].
    + eapply (A1 a x (r ++ tk :: b1)); [rewrite Ea, E1, <- app_assoc; reflexivity|exact L].
    + destruct (split_app _ _ _ _ _ E2) as [(r2 & E3 & E4)|(r2 & E3 & E4)].
      * destruct (Iins x) as [_ ->]; [rewrite E3; apply in_mid|]. rewrite <- KT'. eapply (A1 a0 tk b1); [exact Ea|rewrite La; exact Lt].
      * eapply (A1 (a0 ++ r2) x b); [rewrite Ea, E4, app_assoc; reflexivity|]. rewrite nlen_app, La. lia.
Qed.
End S.
