(* Two runs of the scanner side by side, on texts that begin alike: the token scanners. *)
From Verif Require Import Base ReaderModel Utf8Spec CharSpec Types CursorModel ScanModel ScannerModel PlanFree LineCur SplitSpec SplitCur.

Section T.
Variables (X Y : list N) (di dl : N).
Lemma test_column k j (k1 k2 : N -> cm bool) : (forall c, locb X Y di dl k j (k1 c) (k2 c)) -> locb X Y di dl k j (bind column k1) (bind column k2).
Proof.
  intros H. split; [intros c a c' E; exact (proj1 (H _) _ _ _ E)|]. intros t m L F. exact (proj2 (H (m_column m)) t m L F).
Qed.
Lemma test_or_weak k i j a1 a2 b1 b2 : locb X Y di dl k i a1 a2 -> locb X Y di dl k j b1 b2 -> (k <= i)%nat -> (k <= j)%nat -> locb X Y di dl k k (orc a1 b1) (orc a2 b2).
Proof. intros H K L1 L2. apply test_or; [apply (test_weak _ _ _ _ k i)|apply (test_weak _ _ _ _ k j)]; assumption. Qed.
End T.
Create HintDb lc discriminated.
Create HintDb lb discriminated.
Ltac mvs := cbv beta iota delta [move moves_N moves_Z moves_nat moves_bool moves_unit moves_list moves_option moves_tok moves_branch moves_mark moves_token moves_pair moves_sum fst snd].
Ltac split_all a := repeat match type of a with
  | prod _ _ => let b := fresh "b" in destruct a as [a b]; try split_all b
  | blanks => unfold blanks in a
  | plain_state => unfold plain_state in a
  end.
Ltac lb := match goal with
  | |- locb ?X ?Y ?di ?dl ?k ?j (andc (ret ?c) ?b) (andc _ ?b') =>
      let v := eval lazy in c in match v with false => exact (test_no X Y di dl k b b') end
  | |- locb _ _ _ _ _ _ (andc _ _) _ => eapply test_and; [lb|lb]
  | |- locb _ _ _ _ _ _ (orc _ _) _ => first [eapply test_or; [lb|lb] | eapply test_or_weak; [lb|lb|lia|lia]]
  | |- locb _ _ _ _ _ _ (ret _) _ => apply test_ret
  | |- locb _ _ _ _ _ _ (bind column _) _ => apply test_column; intros ?; lb
  | |- locb _ _ _ _ _ _ (check _ _) _ => first [apply test_new; [assumption|reflexivity] | apply test_old; [assumption|lia]]
  | |- _ => solve [eauto with lb]
  end.
Ltac look := first [apply look_mark | apply look_column | apply look_cache | apply look_ret | apply look_peek; [assumption|lia]].
Ltac lc1 :=
  match goal with
  | |- locp ?X ?Y ?di ?dl ?k (bind ?m1 ?k1) (bind ?m2 ?k2) =>
      first [refine (locp_look X Y di dl k m1 m2 k1 k2 _ _); [look|]
            |refine (locp_test X Y di dl k _ m1 m2 k1 k2 _ _ _); [lb| |]; cbv beta iota delta [negb]
            |refine (locp_bind X Y di dl k m1 m2 k1 k2 _ _)]
  | |- locp ?X ?Y ?di ?dl ?k (loop ?b ?a) (loop ?b' _) => refine (loc_loop X Y di dl k b b' a _)
  | |- locp ?X ?Y ?di ?dl ?k (ret ?a) (ret _) => exact (loc_ret X Y di dl k a)
  | |- locp ?X ?Y ?di ?dl ?k (err ?o ?p) (err _ _) => exact (loc_err X Y di dl k o p)
  | |- locp _ _ _ _ _ ub ub => apply loc_ub
  | |- locp _ _ _ _ _ skip skip => apply loc_skip; assumption
  | |- locp _ _ _ _ _ (drop_line _) _ => apply loc_drop_line; assumption
  | |- locp _ _ _ _ _ (andc _ _) _ => eapply looks_locp, locb_looks; lb
  | |- locp _ _ _ _ _ (orc _ _) _ => eapply looks_locp, locb_looks; lb
  | |- locp _ _ _ _ _ (check _ _) _ => eapply looks_locp, locb_looks; lb
  | |- locp _ _ _ _ _ (cache _) _ => apply looks_locp; look
  | |- locp _ _ _ _ _ (if ?b then _ else _) _ => destruct b
  | |- locp _ _ _ _ _ (match ?x with _ => _ end) _ => destruct x
  | |- forall _, _ => let a := fresh "a" in intros a; split_all a; mvs
  | |- locp ?X ?Y ?di ?dl ?k ?m1 ?m2 => solve [auto with lc | refine (locp_le X Y di dl k 0 m1 m2 _ (Nat.le_0_l k)); auto with lc]
  end.
Ltac lc := repeat lc1.

Section S.
Variables (X Y : list N) (di dl : N).
Hypothesis tails : apart X Y \/ (X = [] /\ Y = []).
Notation loc := (locp X Y di dl 0).
Notation locp := (locp X Y di dl).
Notation locb := (locb X Y di dl).
#[local] Hint Resolve tails : lc.
Notation mm := (move_mark di dl).

Lemma l_is_crlf : locb 0 1 is_crlf is_crlf. Proof. unfold is_crlf. lb. Qed.
#[local] Hint Resolve l_is_crlf : lb.
Lemma l_skip_line : loc skip_line skip_line. Proof. unfold skip_line. lc. Qed.
Lemma l_read s : loc (read s) (read s). Proof. unfold read. lc. Qed.
Lemma l_read_line s : loc (read_line s) (read_line s). Proof. unfold read_line. lc. Qed.
Lemma l_put s b : loc (put s b) (put s b). Proof. unfold put. lc. Qed.
#[local] Hint Resolve l_skip_line l_read l_read_line l_put : lc.
Lemma l_skip_while p : loc (skip_while p) (skip_while p). Proof. unfold skip_while. lc. Qed.
Lemma l_read_while p s : loc (read_while p s) (read_while p s). Proof. unfold read_while. lc. Qed.
#[local] Hint Resolve l_skip_while l_read_while : lc.
Lemma l_to_next f a : loc (scan_to_next_token f a) (scan_to_next_token f a). Proof. unfold scan_to_next_token. lc. Qed.
Lemma l_line_end m p : loc (scan_line_end m p) (scan_line_end (mm m) p). Proof. unfold scan_line_end. lc. Qed.
Lemma l_directive_name m : loc (scan_directive_name m) (scan_directive_name (mm m)). Proof. unfold scan_directive_name. lc. Qed.
Lemma l_version_number m : loc (scan_version_number m) (scan_version_number (mm m)). Proof. unfold scan_version_number. lc. Qed.
#[local] Hint Resolve l_to_next l_line_end l_directive_name l_version_number : lc.
Lemma l_version_value m : loc (scan_version_value m) (scan_version_value (mm m)). Proof. unfold scan_version_value. lc. Qed.
Lemma l_tag_handle d m : loc (scan_tag_handle d m) (scan_tag_handle d (mm m)). Proof. unfold scan_tag_handle. lc. Qed.
Lemma l_uri_escapes m s : loc (scan_uri_escapes m s) (scan_uri_escapes (mm m) s). Proof. unfold scan_uri_escapes. lc. Qed.
#[local] Hint Resolve l_version_value l_tag_handle l_uri_escapes : lc.
Lemma l_tag_uri u h m : loc (scan_tag_uri u h m) (scan_tag_uri u h (mm m)). Proof. unfold scan_tag_uri. lc. Qed.
#[local] Hint Resolve l_tag_uri : lc.
Lemma l_tag_directive_value m : loc (scan_tag_directive_value m) (scan_tag_directive_value (mm m)). Proof. unfold scan_tag_directive_value. lc. Qed.
#[local] Hint Resolve l_tag_directive_value : lc.
Lemma l_directive : loc scan_directive scan_directive. Proof. unfold scan_directive. lc. Qed.
Lemma l_anchor a : loc (scan_anchor a) (scan_anchor a). Proof. unfold scan_anchor. lc. Qed.
(* a tag is looked at two characters ahead: what begins with a line feed is none *)
Definition tag_rest (flow : bool) (start : mark) (verbatim : bool) : cm token :=
  tag <- (if verbatim then
            skip ;;; skip ;;;
            suffix <- scan_tag_uri true [] start ;;
            close <- check 0 (eqc 0x3E) ;;
            if negb close then err (Some start) STagClose else
            skip ;;; ret (TTag [] suffix)
          else
            handle <- scan_tag_handle false start ;;
            if is_handle handle then
              suffix <- scan_tag_uri false [] start ;;
              ret (TTag handle suffix)
            else
              suffix <- scan_tag_uri false handle start ;;
              match suffix with
              | [] => ret (TTag [] [0x21])
              | _ => ret (TTag [0x21] suffix)
              end) ;;
  cache 1 ;;;
  z <- check 0 is_blankz ;;
  comma <- (if z then ret true else andc (ret flow) (check 0 (eqc 0x2C))) ;;
  if negb comma then err (Some start) STagEnd else
  e <- get_mark ;;
  ret (mkToken tag start e false).
Lemma l_tag_rest f m v : loc (tag_rest f m v) (tag_rest f (mm m) v). Proof. unfold tag_rest. lc. Qed.
Lemma tag_split f c : scan_tag f c = (start <- get_mark ;; cache 2 ;;; verbatim <- check 1 (eqc 0x3C) ;; tag_rest f start verbatim) c.
Proof. reflexivity. Qed.
Ltac shrk := repeat (intros; match goal with
  | |- shrinks (bind _ _) => apply shrinks_bind
  | |- shrinks (andc _ _) => apply shrinks_bind
  | |- shrinks skip => apply shrinks_skip
  | |- shrinks (check _ _) => apply shrinks_check
  | |- shrinks (cache _) => apply shrinks_cache
  | |- shrinks (scan_tag_uri ?u ?h ?m) => exact (proj1 (l_tag_uri u h m))
  | |- shrinks (scan_tag_handle ?u ?m) => exact (proj1 (l_tag_handle u m))
  | |- shrinks (if ?b then _ else _) => destruct b
  | |- shrinks (match ?b with _ => _ end) => destruct b
  | |- shrinks (err _ _) => discriminate
  | |- shrinks (ret _) => intros ? ? ? SE; injection SE as _ <-; lia
  | |- shrinks get_mark => intros ? ? ? SE; injection SE as _ <-; lia
  end).
Lemma tag_rest_lf f m v r mk a c : tag_rest f m v (cu (0xA :: r) mk) = COk a c -> (length (c_text c) <= length r)%nat.
Proof.
  unfold tag_rest. unfold bind at 1. match goal with |- match ?p (cu (0xA :: r) mk) with _ => _ end = _ -> _ => destruct (p (cu (0xA :: r) mk)) as [tg c1|e| |] eqn:E1 end; try discriminate. intros E2.
  assert (L2 : (length (c_text c) <= length (c_text c1))%nat). { revert E2. match goal with |- ?p c1 = _ -> _ => assert (H : shrinks p) by shrk; apply H end. }
  destruct v; unfold bind at 1 in E1.
  - cbn [skip cu c_text c_unread length] in E1. revert E1. match goal with |- ?p ?c0 = _ -> _ => assert (H : shrinks p) by shrk; intros E1; apply H in E1 end. cbn [c_text] in E1. lia.
  - replace (scan_tag_handle false m (cu (0xA :: r) mk)) with (@CErr (list N) (mkSerr SNoBang (Some m) mk)) in E1; [discriminate|].
    unfold scan_tag_handle, bind. unfold cu. rewrite cache_full. reflexivity.
Qed.
Lemma l_tag f : loc (scan_tag f) (scan_tag f).
Proof.
  assert (Sh : shrinks (scan_tag f)) by (unfold scan_tag; shrk). split; [exact Sh|]. intros t m L F.
  destruct (Nat.le_gt_cases 2 (length t)) as [G|G].
  - unfold both. rewrite !tag_split. unfold bind, get_mark, cu. cbn [c_mark]. rewrite !cache_full. unfold check, bind. fold (cu (t ++ X) m). fold (cu (t ++ Y) (mm m)).
    rewrite !peek_cu by lia. destruct (forallb _ _); [|right; exact I]. cbn [ret]. apply (l_tag_rest f m); auto.
  - destruct tails as [N|[E1 E2]].
    + left. split; [exact N|]. destruct (scan_tag f (cu (t ++ X) m)) as [a c|e| |] eqn:E; auto. destruct t as [|x [|y t]]; [exact (Sh _ _ _ E)| |cbn in G; lia].
      assert (x = 0xA) as ->. { destruct (L N) as [Q|[[|z t'] Q]]; [discriminate| |destruct t'; discriminate]. injection Q as ->. reflexivity. }
      rewrite tag_split in E. unfold bind, get_mark in E. cbn [c_mark cu] in E. unfold cu in E. rewrite cache_full in E. unfold check, bind in E.
      destruct (peek 1 _) as [b c1|e| |] eqn:E3; try discriminate. cbn [ret] in E.
      assert (c1 = cu ([0xA] ++ X) m) as ->. { revert E3. unfold peek. destruct (_ && _); [|discriminate]. intros E3. injection E3 as _ <-. reflexivity. }
      exact (tag_rest_lf _ _ _ _ _ _ _ E).
    + pose proof (proj2 (l_tag_rest f m (eqc 0x3C (nth 1 (t ++ Y) 0))) t m L F) as K. unfold both in *. rewrite !tag_split. unfold bind, get_mark, cu in *. cbn [c_mark] in *. rewrite !cache_full. unfold check, bind, peek. cbn [c_text c_unread].
      rewrite (same_tails X Y E1 E2) in *. destruct (_ && _); [exact K|right; exact I].
Qed.
Lemma l_block_breaks p i b m : loc (scan_block_scalar_breaks p i b m) (scan_block_scalar_breaks p i b (mm m)). Proof. unfold scan_block_scalar_breaks. lc. Qed.
Lemma l_block_header m : loc (scan_block_header m) (scan_block_header (mm m)). Proof. unfold scan_block_header. lc. Qed.
#[local] Hint Resolve l_block_breaks l_block_header : lc.
Lemma l_block_scalar p b : loc (scan_block_scalar p b) (scan_block_scalar p b). Proof. unfold scan_block_scalar. lc. Qed.
Lemma l_triple c : eqc c 0xA = false -> locb 0 3 (triple c) (triple c).
Proof. intros E. unfold triple. repeat (eapply test_and); apply test_new; assumption. Qed.
Lemma l_triple_dash : locb 0 3 (triple 0x2D) (triple 0x2D). Proof. apply l_triple. reflexivity. Qed.
Lemma l_triple_dot : locb 0 3 (triple 0x2E) (triple 0x2E). Proof. apply l_triple. reflexivity. Qed.
#[local] Hint Resolve l_triple_dash l_triple_dot : lb.
Lemma l_document_indicator : locb 0 3 document_indicator document_indicator. Proof. unfold document_indicator. lb. Qed.
#[local] Hint Resolve l_document_indicator : lb.
Lemma l_skip_n n : loc (skip_n n) (skip_n n). Proof. induction n as [|n IH]; cbn [skip_n]; lc. Qed.
#[local] Hint Resolve l_skip_n : lc.
(* the digits of a code are looked at one by one: the line feed is none of them *)
Lemma shrinks_hex n : forall k m v, shrinks (scan_hex n k m v).
Proof.
  induction n as [|n IH]; intros k m v; cbn [scan_hex]; [intros c a c' E; injection E as _ <-; lia|].
  apply shrinks_bind; [apply shrinks_peek|]. intros x. destruct (is_hex x); [apply IH|discriminate].
Qed.
Lemma l_hexk n : forall k m v, locp k (scan_hex n k m v) (scan_hex n k (mm m) v).
Proof.
  induction n as [|n IH]; intros k m v; cbn [scan_hex]; [exact (loc_ret X Y di dl k v)|].
  split; [exact (shrinks_hex (S n) k m v)|]. intros t mk L F. destruct (Nat.lt_ge_cases k (length t)) as [K|K].
  - unfold both, bind. rewrite !peek_cu by exact K. destruct (forallb _ _); [|right; exact I]. destruct (is_hex (nth k t 0)) eqn:E; [|right; reflexivity].
    apply IH; [exact L|]. apply nolf_S; [exact F|]. intros W. rewrite W in E. discriminate.
  -
    destruct tails as [N|[E1 E2]].
    + left. split; [exact N|]. rewrite (nolf_end X Y k t N L F K). destruct ((x <- peek k ;; _) (cu ([] ++ X) mk)) as [a c|e| |] eqn:E; auto. exact (shrinks_hex (S n) k m v (cu ([] ++ X) mk) a c E).
    + right. rewrite E1, E2, app_nil_r. unfold bind, peek, cu. cbn [c_text c_unread]. destruct (_ && _); [|exact I]. rewrite nth_overflow by exact K. reflexivity.
Qed.
Lemma l_hex n m v : loc (scan_hex n 0 m v) (scan_hex n 0 (mm m) v). Proof. apply l_hexk. Qed.
#[local] Hint Resolve l_hex : lc.
Lemma l_escape m s : locp 1 (scan_escape m s) (scan_escape (mm m) s). Proof. unfold scan_escape. lc. Qed.
#[local] Hint Resolve l_escape : lc.
Lemma l_quoted_word b m s : loc (scan_quoted_word b m s) (scan_quoted_word b (mm m) s). Proof. unfold scan_quoted_word. cbv zeta. lc. Qed.
Lemma l_quoted_blanks b : loc (scan_quoted_blanks b) (scan_quoted_blanks b).
Proof. destruct b as [[[b1 b2] b3] b4]. unfold scan_quoted_blanks. lc. Qed.
Lemma l_fold_breaks s l t : loc (fold_breaks s l t) (fold_breaks s l t). Proof. unfold fold_breaks. lc. Qed.
#[local] Hint Resolve l_quoted_word l_quoted_blanks l_fold_breaks : lc.
Lemma l_flow_scalar b : loc (scan_flow_scalar b) (scan_flow_scalar b). Proof. unfold scan_flow_scalar. cbv zeta. lc. Qed.
Lemma l_plain_word f m s b e : loc (scan_plain_word f m (s, b, e)) (scan_plain_word f (mm m) (s, b, mm e)).
Proof. destruct b as [[[b1 b2] b3] b4]. unfold scan_plain_word. lc. Qed.
Lemma l_plain_blanks i m b : loc (scan_plain_blanks i m b) (scan_plain_blanks i (mm m) b).
Proof. destruct b as [[[b1 b2] b3] b4]. unfold scan_plain_blanks. lc. Qed.
#[local] Hint Resolve l_plain_word l_plain_blanks : lc.
Lemma l_plain_scalar f p : loc (scan_plain_scalar f p) (scan_plain_scalar f p). Proof. unfold scan_plain_scalar. cbv zeta. lc. Qed.
Lemma l_plain_start f : loc (plain_start f) (plain_start f). Proof. unfold plain_start. lc. Qed.
#[local] Hint Resolve l_plain_start : lc.
Lemma test_up k i j a1 a2 : locb k j a1 a2 -> (k <= i)%nat -> locb i j a1 a2.
Proof. intros [S1 H] W. split; [exact S1|]. intros t m L F. apply H; [exact L|]. apply (nolf_le X Y i); assumption. Qed.
Lemma l_triple_dash1 : locb 1 3 (triple 0x2D) (triple 0x2D). Proof. apply (test_up 0); [apply l_triple_dash|lia]. Qed.
Lemma l_triple_dot1 : locb 1 3 (triple 0x2E) (triple 0x2E). Proof. apply (test_up 0); [apply l_triple_dot|lia]. Qed.
#[local] Hint Resolve l_triple_dash1 l_triple_dot1 : lb.
Lemma l_choose f : loc (choose f) (choose f).
Proof.
  unfold choose. refine (locp_look X Y di dl 0 _ _ _ _ _ _); [look|]. intros col. mvs. apply locp_peek; [exact tails| |].
  - lc.
  - lc.
Qed.
End S.
