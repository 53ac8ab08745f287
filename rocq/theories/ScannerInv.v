(* The invariant of the token fetchers. *)
From Verif Require Import Base ReaderModel Utf8Spec CharSpec Types CursorModel ScanModel ScannerModel CursorProofs ScanProofs ScanQuoted ScannerSpec.

(* --- positions --- *)
Lemma adv_index t m t' m' : adv t m t' m' -> m_index m' + nlen t' = m_index m + nlen t.
Proof.
  induction 1; rewrite ?nlen_cons in *; auto; unfold next_column, next_line in *; cbn [m_index] in *; lia.
Qed.
Lemma adv_line_le t m t' m' : adv t m t' m' -> m_line m <= m_line m'.
Proof. induction 1; try lia; unfold next_column, next_line in *; cbn [m_line] in *; lia. Qed.
(* on one line, columns and indices move together *)
Lemma adv_same_line t m t' m' : adv t m t' m' -> m_line m' = m_line m -> m_column m' + m_index m = m_column m + m_index m'.
Proof.
  induction 1 as [|? ? ? ? ? ? A IH|? ? ? ? A IH|? ? ? ? ? ? ? A IH]; intros L.
  - lia.
  - unfold next_column in IH. cbn [m_line m_index m_column] in *. specialize (IH L). lia.
  - apply adv_line_le in A. unfold next_line in A. cbn in A. lia.
  - apply adv_line_le in A. unfold next_line in A. cbn in A. lia.
Qed.
Lemma adv_lt_index t m t' m' : adv t m t' m' -> (length t' < length t)%nat -> m_index m < m_index m'.
Proof. intros A L. apply adv_index in A. unfold nlen in A. lia. Qed.

(* --- folds --- *)
Lemma flow_from_app d a b : flow_from d (a ++ b) = flow_from (flow_from d a) b.
Proof. unfold flow_from. apply fold_left_app. Qed.
Lemma block_from_app d a b : block_from d (a ++ b) = block_from (block_from d a) b.
Proof. unfold block_from. apply fold_left_app. Qed.
Lemma block_from_add k d l : block_from (d + k) l = (block_from d l + k)%Z.
Proof.
  revert d. induction l as [|x l IH]; intros d; [reflexivity|]. cbn [block_from fold_left].
  unfold block_from in IH. replace (block_after (d + k) x) with (block_after d x + k)%Z; [apply IH|].
  unfold block_after. destruct (t_tok x); lia.
Qed.

(* tokens after the first token of a possible key at flow level [L] *)
Fixpoint quiet (L f : N) (l : list token) : Prop :=
  L <= f /\ match l with
            | [] => True
            | x :: r => (f = L -> is_node_token x = true) /\ quiet L (flow_after f x) r
            end.
Lemma quiet_low L f l : quiet L f l -> L <= f.
Proof. destruct l; cbn; tauto. Qed.
Lemma quiet_app L f a b : quiet L f (a ++ b) <-> quiet L f a /\ quiet L (flow_from f a) b.
Proof.
  revert f. induction a as [|x a IH]; intros f; cbn [app].
  - cbn [quiet flow_from fold_left]. split; [intros H; split; auto; split; auto; eapply quiet_low; eauto|tauto].
  - cbn [quiet]. rewrite IH. cbn [flow_from fold_left]. tauto.
Qed.
Definition neutral (x : token) : Prop := forall d, flow_after d x = d.
Lemma flow_neutral l d : Forall neutral l -> flow_from d l = d.
Proof. induction 1 as [|x l N H IH]; [reflexivity|]. cbn [flow_from fold_left]. rewrite N. exact IH. Qed.
Lemma quiet_neutral L f l : Forall neutral l -> L < f -> quiet L f l.
Proof.
  induction 1 as [|x l N H IH]; intros K; cbn [quiet]; split; try lia; auto. split; [lia|]. rewrite N. auto.
Qed.
Lemma quiet_insert L f a ins b : Forall neutral ins -> L < flow_from f a -> quiet L f (a ++ b) -> quiet L f (a ++ ins ++ b).
Proof.
  intros HN HL H. apply quiet_app in H as [H1 H2]. apply quiet_app. split; auto. apply quiet_app. split.
  - apply quiet_neutral; auto.
  - rewrite flow_neutral by auto. exact H2.
Qed.

(* every prefix is balanced, outer tokens in block context come at depth zero,
   block tokens come in block context only *)
Fixpoint struct (f : N) (b : Z) (l : list token) : Prop :=
  (0 <= b)%Z /\ match l with
            | [] => True
            | x :: r => (is_outer x = true -> f = 0 -> b = 0%Z) /\ (is_block_token x = true -> f = 0)
                        /\ struct (flow_after f x) (block_after b x) r
            end.
Lemma struct_low f b l : struct f b l -> (0 <= b)%Z.
Proof. destruct l; cbn; tauto. Qed.
Lemma struct_app f b l1 l2 : struct f b (l1 ++ l2) <-> struct f b l1 /\ struct (flow_from f l1) (block_from b l1) l2.
Proof.
  revert f b. induction l1 as [|x l IH]; intros f b; cbn [app].
  - cbn [struct flow_from block_from fold_left]. split; [intros H; split; auto; split; auto; eapply struct_low; eauto|tauto].
  - cbn [struct]. rewrite IH. cbn [flow_from block_from fold_left]. tauto.
Qed.
(* one more level around tokens none of which is outer in block context *)
Lemma struct_lift L f b l : quiet L f l -> struct f b l -> struct f (b + 1) l.
Proof.
  revert f b. induction l as [|x l IH]; intros f b Hq Hs; cbn [struct quiet] in *.
  - split; [lia|exact I].
  - destruct Hq as (Q1 & Q2 & Q3). destruct Hs as (S1 & S2 & S3 & S4). split; [lia|]. split.
    + intros O F. subst f. assert (L = 0) by lia. subst L. specialize (Q2 eq_refl). exfalso.
      clear -O Q2. unfold is_outer, is_node_token in *. destruct (t_tok x); discriminate.
    + split; auto. replace (block_after (b + 1) x) with (block_after b x + 1)%Z; [apply IH; auto|].
      unfold block_after. destruct (t_tok x); lia.
Qed.

(* an implicit key [x] finds its VALUE *)
Fixpoint has_value (L f : N) (x : token) (l : list token) : Prop :=
  match l with
  | [] => False
  | y :: r => L <= f /\
      ((f = L /\ t_tok y = TValue /\ m_line (t_start y) = m_line (t_start x)
        /\ m_index (t_start y) <= m_index (t_start x) + 1024)
       \/ ((f = L -> is_node_token y = true) /\ has_value L (flow_after f y) x r))
  end.
Lemma has_value_app L f x a b : has_value L f x a -> has_value L f x (a ++ b).
Proof.
  revert f. induction a as [|y a IH]; intros f H; [destruct H|]. cbn [app has_value] in *.
  destruct H as (H1 & [H2|[H2 H3]]); split; auto.
Qed.
Lemma has_value_split L f x a b : has_value L f x (a ++ b) -> has_value L f x a \/ (L <= flow_from f a /\ has_value L (flow_from f a) x b).
Proof.
  revert f. induction a as [|y a IH]; intros f H.
  - right. split; auto. destruct b as [|z b]; [destruct H|]. apply H.
  - cbn [app has_value flow_from fold_left] in *. destruct H as (H1 & [H2|[H2 H3]]); [tauto|].
    destruct (IH _ H3) as [H4|H4]; tauto.
Qed.
Lemma has_value_quiet L K f x l : has_value L f x l -> quiet K f l -> L <= K -> False.
Proof.
  revert f. induction l as [|y l IH]; intros f H Q LK; [destruct H|]. cbn [has_value quiet] in *.
  destruct H as (H1 & [(-> & V & _)|[H2 H3]]).
  - destruct Q as (Q1 & Q2 & _). assert (L = K) by lia. subst K. specialize (Q2 eq_refl).
    unfold is_node_token in Q2. rewrite V in Q2. discriminate.
  - eapply IH; eauto. apply Q.
Qed.
Lemma quiet_has_value L f x l y : quiet L f l -> flow_from f l = L -> t_tok y = TValue ->
  m_line (t_start y) = m_line (t_start x) -> m_index (t_start y) <= m_index (t_start x) + 1024 -> has_value L f x (l ++ [y]).
Proof.
  revert f. induction l as [|z l IH]; intros f Q F V L1 L2; cbn [app has_value quiet flow_from fold_left] in *.
  - split; [tauto|]. left. auto.
  - destruct Q as (Q1 & Q2 & Q3). split; auto.
Qed.
Fixpoint implicit_ok (f : N) (l : list token) : Prop :=
  match l with
  | [] => True
  | x :: r => (is_implicit_key x -> has_value f f x r /\ (exists y q, r = y :: q /\ t_start y = t_start x /\ is_node_token y = true))
              /\ implicit_ok (flow_after f x) r
  end.
Lemma implicit_app f a b : implicit_ok f a -> implicit_ok (flow_from f a) b -> implicit_ok f (a ++ b).
Proof.
  revert f. induction a as [|x a IH]; intros f H1 H2; [exact H2|]. cbn [app implicit_ok flow_from fold_left] in *.
  destruct H1 as [H1 H3]. split; auto. intros I. destruct (H1 I) as (V & y & q & -> & S & Ny).
  split; [apply has_value_app; exact V|]. exists y, (q ++ b). auto.
Qed.
Lemma implicit_suffix f a b : implicit_ok f (a ++ b) -> implicit_ok (flow_from f a) b.
Proof.
  revert f. induction a as [|x a IH]; intros f H; [exact H|]. cbn [app implicit_ok flow_from fold_left] in *. apply IH. tauto.
Qed.
(* no implicit key waits for its value across the start of a possible key *)
Lemma implicit_prefix f a b K : implicit_ok f (a ++ b) -> flow_from f a = K -> quiet K K b -> implicit_ok f a.
Proof.
  revert f. induction a as [|x a IH]; intros f H F Q; [exact I|]. cbn [app implicit_ok flow_from fold_left] in *.
  destruct H as [H1 H2]. split; [|eapply IH; eauto]. intros I. destruct (H1 I) as (V & y & q & E & S).
  assert (Fx : flow_after f x = f) by (destruct I as [I _]; unfold flow_after; rewrite I; reflexivity).
  fold (flow_from (flow_after f x) a) in F. rewrite Fx in F.
  destruct (has_value_split _ _ _ _ _ V) as [V'|[V1 V2]].
  - split; auto. destruct a as [|z a]; [destruct V'|]. cbn [app] in E. injection E as -> E. exists y, a. auto.
  - exfalso. rewrite F in V1, V2. eapply has_value_quiet; eauto.
Qed.

(* marks in order *)
Fixpoint sorted (lo : N) (l : list token) (hi : N) : Prop :=
  match l with
  | [] => lo <= hi
  | x :: r => lo <= m_index (t_start x) /\ m_index (t_start x) <= m_index (t_end x) /\ sorted (m_index (t_end x)) r hi
  end.
Lemma sorted_app lo a b hi : sorted lo (a ++ b) hi <-> exists mid, sorted lo a mid /\ sorted mid b hi.
Proof.
  revert lo. induction a as [|x a IH]; intros lo; cbn [app sorted].
  - split; [intros H; exists lo; split; auto; lia|]. intros (mid & H1 & H2).
    destruct b; cbn [sorted] in *; [lia|]. intuition lia.
  - rewrite IH. split; [intros (H1 & H2 & mid & H3 & H4); exists mid; auto|intros (mid & (H1 & H2 & H3) & H4); repeat split; auto; exists mid; auto].
Qed.
Lemma sorted_le lo l hi hi' : sorted lo l hi -> hi <= hi' -> sorted lo l hi'.
Proof. revert lo. induction l as [|x l IH]; intros lo H K; cbn [sorted] in *; [lia|]. intuition. Qed.

(* --- keys and indents --- *)
Inductive keys_ok (K : N -> skey -> Prop) : N -> N -> list skey -> Prop :=
| ko_one b k : (k_possible k = true -> k_number k < b /\ K 0 k) -> keys_ok K 0 b [k]
| ko_cons l b b' k ks : b' <= b -> (k_possible k = true -> b' <= k_number k /\ k_number k < b /\ K (l + 1) k) ->
    keys_ok K l b' ks -> keys_ok K (l + 1) b (k :: ks).
Lemma keys_mono (K K' : N -> skey -> Prop) l b b' ks :
  (forall l' k, k_possible k = true -> k_number k < b -> l' <= l -> K l' k -> K' l' k) -> b <= b' -> keys_ok K l b ks -> keys_ok K' l b' ks.
Proof.
  intros H Hb HK. revert b' Hb. induction HK as [b k Hk|l b b0 k ks Hb0 Hk HK IH]; intros b' Hb.
  - constructor. intros P. destruct (Hk P). split; [lia|auto]. apply H; auto. lia.
  - apply ko_cons with (b' := b0); [lia| |].
    + intros P. destruct (Hk P) as (K1 & K2 & K3). repeat split; auto; [lia|apply H; auto; lia].
    + apply IH; [|lia]. intros l' k' P N L. apply H; auto; lia.
Qed.
Fixpoint indents_ok (i : Z) (is : list Z) : Prop :=
  match is with [] => i = (-1)%Z | j :: r => (j < i)%Z /\ indents_ok j r end.
Lemma indents_low i is : indents_ok i is -> (-1 <= i)%Z.
Proof. revert i. induction is as [|j r IH]; intros i H; cbn in H; [lia|]. destruct H as [H1 H2]. apply IH in H2. lia. Qed.

(* what is known about a possible simple key at flow level [L] *)
Record key_ok (T : list N) (all : list token) (parsed : N) (indent : Z) (t : list N) (m : mark) (L : N) (k : skey) : Prop := {
  ko_parsed : parsed <= k_number k;
  ko_level : flow_depth (firstn (N.to_nat (k_number k)) all) = L;
  ko_token : exists tk, nth_error all (N.to_nat (k_number k)) = Some tk /\ t_start tk = k_mark k;
  ko_pos : exists t1, adv T mark0 t1 (k_mark k) /\ adv t1 (k_mark k) t m /\ (length t < length t1)%nat;
  ko_quiet : quiet L L (skipn (N.to_nat (k_number k)) all);
  ko_indent : L = 0 -> (indent <= Z.of_N (m_column (k_mark k)))%Z }.

Definition fpos (T : list N) (m : mark) : Prop := exists t, adv T mark0 t m.
Definition version_ok (T : list N) (x : token) : Prop :=
  match t_tok x with
  | TVersion a b => exists t, adv T mark0 t (t_start x) /\ version_text t a b
  | _ => True
  end.
Definition not_stream (x : token) : Prop :=
  match t_tok x with TStreamStart _ | TStreamEnd => False | _ => True end.

(* what is known about the tokens fetched so far *)
Record good (T : list N) (e : encoding) (all : list token) : Prop := {
  g_struct : struct 0 0 all;
  g_impl : implicit_ok 0 all;
  g_vers : Forall (version_ok T) all;
  g_deep : Forall (fun x => t_deep x = false) all;
  g_first : exists r, all = mkToken (TStreamStart e) mark0 mark0 false :: r /\ Forall not_stream r }.

Record core (T : list N) (sl : nat) (es all : list token) (s : sc) : Prop := {
  c_all : all = es ++ s_tokens s;
  c_parsed : s_parsed s = nlen es;
  c_started : s_started s = true;
  c_ended : s_ended s = false;
  c_error : s_error s = None;
  c_pos : adv T mark0 (c_text (s_cur s)) (smark s);
  c_flow : s_flow s = flow_depth all;
  c_keys : keys_ok (key_ok T all (s_parsed s) (s_indent s) (c_text (s_cur s)) (smark s)) (s_flow s) (nlen all) (s_keys s);
  c_ind : indents_ok (s_indent s) (s_indents s);
  c_bd : block_depth all = Z.of_nat (length (s_indents s));
  c_good : good T (s_enc s) all;
  c_marks : Forall (fun x => fpos T (t_start x) /\ fpos T (t_end x)) all;
  c_sorted : sorted 0 all (m_index (smark s));
  c_count : (length all + length (s_indents s) + 4 * length (c_text (s_cur s)) <= 4 * length T + 1 + sl)%nat }.
