(* Two runs of the scanner side by side, on texts that begin alike: reading characters.
   The first text is [t ++ X], the second one [t ++ Y]; the marks of the second run are
   those of the first one moved by [di] characters and [dl] lines.  As long as nothing
   of [X] is looked at, both do the same. *)
From Verif Require Import Base ReaderModel Utf8Spec CharSpec Types CursorModel ScanModel ScannerModel PlanFree LineCur SplitSpec.

(* How a value changes when the marks are moved *)
Class Moves (A : Type) := move : N -> N -> A -> A.
#[export] Instance moves_N : Moves N := fun _ _ x => x.
#[export] Instance moves_Z : Moves Z := fun _ _ x => x.
#[export] Instance moves_nat : Moves nat := fun _ _ x => x.
#[export] Instance moves_bool : Moves bool := fun _ _ x => x.
#[export] Instance moves_unit : Moves unit := fun _ _ x => x.
#[export] Instance moves_list : Moves (list N) := fun _ _ x => x.
#[export] Instance moves_option : Moves (option bool) := fun _ _ x => x.
#[export] Instance moves_tok : Moves tok := fun _ _ x => x.
#[export] Instance moves_branch : Moves branch := fun _ _ x => x.
#[export] Instance moves_mark : Moves mark := move_mark.
#[export] Instance moves_token : Moves token := move_token.
#[export] Instance moves_pair A B (_ : Moves A) (_ : Moves B) : Moves (A * B) := fun i l x => (move i l (fst x), move i l (snd x)).
#[export] Instance moves_sum A B (_ : Moves A) (_ : Moves B) : Moves (A + B) := fun i l x => match x with inl a => inl (move i l a) | inr b => inr (move i l b) end.

Definition shrinks {A} (m : cm A) : Prop := forall c a c', m c = COk a c' -> (length (c_text c') <= length (c_text c))%nat.

Section S.
Variables (X Y : list N) (di dl : N).
Definition apart : Prop := X <> Y.
Hypothesis tails : apart \/ (X = [] /\ Y = []).
Notation mv := (move di dl).
Notation mm := (move_mark di dl).
(* the common part ends with a line feed *)
Definition lined (t : list N) : Prop := apart -> t = [] \/ exists t', t = t' ++ [0xA].
Lemma lined_tl x r : lined (x :: r) -> lined r.
Proof.
  intros H N. destruct (H N) as [K|[[|y t'] K]]; [discriminate| |]; injection K as _ K; [left; exact K|right; exists t'; exact K].
Qed.
Lemma lined_skipn k : forall t, lined t -> lined (skipn k t).
Proof. induction k as [|k IH]; intros [|x r] H; auto. apply IH, (lined_tl x), H. Qed.

(* the first run has looked at [X] *)
Definition hit {A} (r : cres A) : Prop := apart /\ match r with COk _ c => (length (c_text c) <= length X)%nat | _ => True end.
Definition agree {A} {_ : Moves A} (r1 r2 : cres A) : Prop :=
  match r1, r2 with
  | COk a1 c1, COk a2 c2 => a2 = mv a1 /\ exists t m, c1 = cu (t ++ X) m /\ c2 = cu (t ++ Y) (mm m) /\ lined t
  | CErr e1, CErr e2 => e2 = move_error di dl e1
  | COk _ _, CErr _ | CErr _, COk _ _ => False
  | _, _ => True
  end.
Lemma agree_fuel {A} {_ : Moves A} (r : cres A) : agree r CFuel.
Proof. destruct r; exact I. Qed.
Definition both {A} {_ : Moves A} (m1 m2 : cm A) (t : list N) (m : mark) : Prop :=
  hit (m1 (cu (t ++ X) m)) \/ agree (m1 (cu (t ++ X) m)) (m2 (cu (t ++ Y) (mm m))).
(* the first [k] characters are no line feeds *)
Definition nolf (k : nat) (t : list N) : Prop := apart -> forall i, (i < k)%nat -> (i < length t)%nat -> nth i t 0 <> 0xA.
Definition locp {A} {_ : Moves A} (k : nat) (m1 m2 : cm A) : Prop := shrinks m1 /\ forall t m, lined t -> nolf k t -> both m1 m2 t m.
Notation loc := (locp 0).
Lemma nolf0 t : nolf 0 t. Proof. intros _ i Hi. lia. Qed.
Lemma nolf_le k j t : nolf k t -> (j <= k)%nat -> nolf j t.
Proof. intros H L N i Hi. apply (H N). lia. Qed.
Lemma nolf_S k t : nolf k t -> nth k t 0 <> 0xA -> nolf (S k) t.
Proof. intros H K N i Hi Hl. destruct (Nat.eq_dec i k) as [->|]; [exact K|apply (H N); lia]. Qed.
Lemma nolf_end k t : apart -> lined t -> nolf k t -> (length t <= k)%nat -> t = [].
Proof.
  intros N L H K. destruct (L N) as [E|[t' ->]]; [exact E|exfalso]. rewrite app_length in K. cbn in K. apply (H N (length t')); [lia|rewrite app_length; cbn; lia|apply nth_middle].
Qed.
Lemma locp_le {A} {_ : Moves A} k j (m1 m2 : cm A) : locp j m1 m2 -> (j <= k)%nat -> locp k m1 m2.
Proof. intros [S1 H] L. split; [exact S1|]. intros t m Lt K. apply H; [exact Lt|]. apply (nolf_le k); assumption. Qed.
(* tests that only look: they leave the cursor where it is, and if the answer is yes,
   the first [j] characters are no line feeds *)
Definition locb (k j : nat) (m1 m2 : cm bool) : Prop := shrinks m1 /\ forall t m, lined t -> nolf k t ->
  hit (m1 (cu (t ++ X) m)) \/
  match m1 (cu (t ++ X) m), m2 (cu (t ++ Y) (mm m)) with
  | COk b1 c1, COk b2 c2 => b2 = b1 /\ c1 = cu (t ++ X) m /\ c2 = cu (t ++ Y) (mm m) /\ (b1 = true -> nolf j t)
  | COk _ _, CErr _ | CErr _, CErr _ | CErr _, COk _ _ => False
  | _, _ => True
  end.

Lemma loc_ret {A} {_ : Moves A} k (a : A) : locp k (ret a) (ret (mv a)).
Proof. split; [intros c b c' E; injection E as _ <-; lia|]. intros t m L _. right. split; [reflexivity|]. exists t, m. auto. Qed.
Lemma shrinks_bind {A B} (m : cm A) (k : A -> cm B) : shrinks m -> (forall a, shrinks (k a)) -> shrinks (bind m k).
Proof. intros H K c b c' E. unfold bind in E. destruct (m c) as [a c1|e| |] eqn:E1; try discriminate. apply K in E. apply H in E1. lia. Qed.
Lemma locp_bind {A B} {_ : Moves A} {_ : Moves B} k (m1 m2 : cm A) (k1 k2 : A -> cm B) :
  locp k m1 m2 -> (forall a, loc (k1 a) (k2 (mv a))) -> locp k (bind m1 k1) (bind m2 k2).
Proof.
  intros [S1 H] K. split; [apply shrinks_bind; [exact S1|intros a; apply K]|]. intros t m L F. unfold both, bind.
  destruct (H t m L F) as [[N G]|G].
  - left. split; [exact N|]. destruct (m1 (cu (t ++ X) m)) as [a c|e| |]; auto. destruct (k1 a c) as [b c'|e| |] eqn:E; auto. apply (proj1 (K a)) in E. lia.
  - destruct (m1 (cu (t ++ X) m)) as [a1 c1|e1| |]; destruct (m2 (cu (t ++ Y) (mm m))) as [a2 c2|e2| |]; cbn in G; try contradiction; try (right; exact I).
    + destruct G as (-> & t' & m' & -> & -> & L'). apply (proj2 (K a1) t' m' L'). apply nolf0.
    + right. cbn. destruct (k1 a1 c1); exact I.
    + right. cbn. destruct (k1 a1 c1); exact I.
    + right. exact G.
Qed.
(* after a test, what is known of the characters remains *)
Lemma locp_test {B} {_ : Moves B} k j (m1 m2 : cm bool) (k1 k2 : bool -> cm B) :
  locb k j m1 m2 -> locp j (k1 true) (k2 true) -> locp k (k1 false) (k2 false) -> locp k (bind m1 k1) (bind m2 k2).
Proof.
  intros [S1 H] K1 K2. split; [apply shrinks_bind; [exact S1|intros []; [apply K1|apply K2]]|]. intros t m L F. unfold both, bind.
  destruct (H t m L F) as [[N G]|G].
  - left. split; [exact N|]. destruct (m1 (cu (t ++ X) m)) as [a c|e| |]; auto. destruct (k1 a c) as [b c'|e| |] eqn:E; auto. destruct a; [apply (proj1 K1) in E|apply (proj1 K2) in E]; lia.
  - destruct (m1 (cu (t ++ X) m)) as [a1 c1|e1| |]; destruct (m2 (cu (t ++ Y) (mm m))) as [a2 c2|e2| |]; cbn in G; try contradiction; try (right; exact I).
    + destruct G as (-> & -> & -> & G). destruct a1; [apply K1; auto|apply K2; auto].
    + right. cbn. destruct (k1 a1 c1); exact I.
    + right. cbn. destruct (k1 a1 c1); exact I.
Qed.
Definition looks {A} {_ : Moves A} (k : nat) (m1 m2 : cm A) : Prop := shrinks m1 /\ forall t m, lined t -> nolf k t ->
  hit (m1 (cu (t ++ X) m)) \/
  match m1 (cu (t ++ X) m), m2 (cu (t ++ Y) (mm m)) with
  | COk b1 c1, COk b2 c2 => b2 = mv b1 /\ c1 = cu (t ++ X) m /\ c2 = cu (t ++ Y) (mm m)
  | COk _ _, CErr _ | CErr _, CErr _ | CErr _, COk _ _ => False
  | _, _ => True
  end.
Lemma locp_look {A B} {_ : Moves A} {_ : Moves B} k (m1 m2 : cm A) (k1 k2 : A -> cm B) :
  looks k m1 m2 -> (forall a, locp k (k1 a) (k2 (mv a))) -> locp k (bind m1 k1) (bind m2 k2).
Proof.
  intros [S1 H] K. split; [apply shrinks_bind; [exact S1|intros a; apply K]|]. intros t m L F. unfold both, bind.
  destruct (H t m L F) as [[N G]|G].
  - left. split; [exact N|]. destruct (m1 (cu (t ++ X) m)) as [a c|e| |]; auto. destruct (k1 a c) as [b c'|e| |] eqn:E; auto. apply (proj1 (K a)) in E; lia.
  - destruct (m1 (cu (t ++ X) m)) as [a1 c1|e1| |]; destruct (m2 (cu (t ++ Y) (mm m))) as [a2 c2|e2| |]; cbn in G; try contradiction; try (right; exact I).
    + destruct G as (-> & -> & ->). apply (K a1); auto.
    + right. cbn. destruct (k1 a1 c1); exact I.
    + right. cbn. destruct (k1 a1 c1); exact I.
Qed.
Lemma looks_locp {A} {_ : Moves A} k (m1 m2 : cm A) : looks k m1 m2 -> locp k m1 m2.
Proof.
  intros [S1 H]. split; [exact S1|]. intros t m L F. destruct (H t m L F) as [G|G]; [left; exact G|right].
  destruct (m1 (cu (t ++ X) m)) as [a1 c1|e1| |]; destruct (m2 (cu (t ++ Y) (mm m))) as [a2 c2|e2| |]; cbn in G |- *; try contradiction; auto.
  destruct G as (-> & -> & ->). split; [reflexivity|]. exists t, m. auto.
Qed.
Lemma locb_looks k j (m1 m2 : cm bool) : locb k j m1 m2 -> looks k m1 m2.
Proof.
  intros [S1 H]. split; [exact S1|]. intros t m L F. destruct (H t m L F) as [G|G]; [left; exact G|right].
  destruct (m1 (cu (t ++ X) m)) as [a1 c1|e1| |]; destruct (m2 (cu (t ++ Y) (mm m))) as [a2 c2|e2| |]; auto. destruct G as (-> & G1 & G2 & _). auto.
Qed.
Lemma loc_err {A} {_ : Moves A} k (o : option mark) p : locp k (@err A o p) (err (option_map mm o) p).
Proof. split; [discriminate|]. intros t m L _. right. reflexivity. Qed.
Lemma loc_ub {A} {_ : Moves A} k : locp k (@ub A) ub.
Proof. split; [discriminate|]. intros t m L _. right. exact I. Qed.
Lemma look_mark k : looks k get_mark get_mark.
Proof. split; [intros c b c' E; injection E as _ <-; lia|]. intros t m L _. right. cbn. auto. Qed.
Lemma look_column k : looks k column column.
Proof. split; [intros c b c' E; injection E as _ <-; lia|]. intros t m L _. right. cbn. auto. Qed.
Lemma shrinks_cache n : shrinks (cache n).
Proof. intros c a c' E. unfold cache in E. destruct (_ <=? _)%nat; [injection E as _ <-; lia|]. destruct (_ && _); [discriminate|]. injection E as _ <-. cbn. lia. Qed.
Lemma look_cache k n : looks k (cache n) (cache n).
Proof. split; [apply shrinks_cache|]. intros t m L _. right. unfold cu. rewrite !cache_full. auto. Qed.
Lemma look_ret {A} {_ : Moves A} k (a : A) : looks k (ret a) (ret (mv a)).
Proof. split; [intros c b c' E; injection E as _ <-; lia|]. intros t m L _. right. cbn. auto. Qed.
Lemma shrinks_peek k : shrinks (peek k).
Proof. intros c a c' E. unfold peek in E. destruct (_ && _); [|discriminate]. injection E as _ <-. lia. Qed.
Lemma peek_cu k t Z m : (k < length t)%nat -> peek k (cu (t ++ Z) m) = if forallb is_ascii (firstn k t) then COk (nth k t 0) (cu (t ++ Z) m) else CBad.
Proof.
  intros L. unfold peek, cu. cbn [c_text c_unread]. rewrite app_length. replace (k <? S (length t + length Z))%nat with true by (symmetry; apply Nat.ltb_lt; lia).
  rewrite firstn_app. replace (k - length t)%nat with O by lia. rewrite firstn_O, app_nil_r, app_nth1 by exact L. reflexivity.
Qed.
Lemma same_tails : X = [] -> Y = [] -> X = Y.
Proof. congruence. Qed.
Lemma look_peek k i : (i <= k)%nat -> looks k (peek i) (peek i).
Proof.
  intros K. split; [apply shrinks_peek|]. intros t m L F. destruct (Nat.lt_ge_cases i (length t)) as [H|H].
  - right. rewrite !peek_cu by exact H. destruct (forallb _ _); [|exact I]. auto.
  - destruct tails as [N|[E1 E2]].
    + left. split; [exact N|]. rewrite (nolf_end k t N L F) by lia. destruct (peek i (cu ([] ++ X) m)) as [a c|e| |] eqn:E; auto. apply shrinks_peek in E. exact E.
    + right. unfold peek, cu. cbn [c_text c_unread]. rewrite (same_tails E1 E2). destruct (_ && _); [|exact I]. auto.
Qed.
Lemma looks_shrinks {A} {_ : Moves A} k (m1 m2 : cm A) : looks k m1 m2 -> shrinks m1. Proof. intros H. apply H. Qed.
Lemma shrinks_check i p : shrinks (check i p).
Proof. apply shrinks_bind; [apply shrinks_peek|]. intros x c a c' E. injection E as _ <-. lia. Qed.
(* a test that a line feed does not pass *)
Lemma test_new k p : p 0xA = false -> locb k (S k) (check k p) (check k p).
Proof.
  intros P. split; [apply shrinks_check|]. intros t m L F. unfold check, bind. destruct (Nat.lt_ge_cases k (length t)) as [H|H].
  - right. rewrite !peek_cu by exact H. destruct (forallb _ _); [|exact I]. cbn. repeat split. intros E. apply nolf_S; [exact F|]. intros W. rewrite W in E. congruence.
  - destruct (proj2 (look_peek k k (le_n _)) t m L F) as [[N G]|G].
    + left. split; [exact N|]. destruct (peek k (cu (t ++ X) m)) as [a c|e| |]; auto.
    + right. destruct (peek k (cu (t ++ X) m)) as [a1 c1|e1| |]; destruct (peek k (cu (t ++ Y) (mm m))) as [a2 c2|e2| |]; auto.
      destruct G as (-> & -> & ->). cbn. repeat split. intros _ N. intros i Hi Hl. apply (F N); lia.
Qed.
Lemma test_old k i p : (i <= k)%nat -> locb k k (check i p) (check i p).
Proof.
  intros K. split; [apply shrinks_check|]. intros t m L F. unfold check, bind. destruct (proj2 (look_peek k i K) t m L F) as [[N G]|G].
  - left. split; [exact N|]. destruct (peek i (cu (t ++ X) m)) as [a c|e| |]; auto.
  - right. destruct (peek i (cu (t ++ X) m)) as [a1 c1|e1| |]; destruct (peek i (cu (t ++ Y) (mm m))) as [a2 c2|e2| |]; auto.
    destruct G as (-> & -> & ->). cbn. auto.
Qed.
Lemma test_ret k b : locb k k (ret b) (ret b).
Proof. split; [intros c x c' E; injection E as _ <-; lia|]. intros t m L F. right. cbn. auto. Qed.
Lemma test_and k i j a1 a2 b1 b2 : locb k i a1 a2 -> locb i j b1 b2 -> locb k j (andc a1 b1) (andc a2 b2).
Proof.
  intros [S1 H] [S2 K]. split. { apply shrinks_bind; [exact S1|]. intros []; [exact S2|]. intros c x c' E. injection E as _ <-. lia. }
  intros t m L F. unfold andc, bind. destruct (H t m L F) as [[N G]|G].
  - left. split; [exact N|]. destruct (a1 (cu (t ++ X) m)) as [a c|e| |]; auto. destruct a; [|exact G]. destruct (b1 c) as [b c'|e| |] eqn:E; auto. apply S2 in E. lia.
  - destruct (a1 (cu (t ++ X) m)) as [x1 c1|e1| |]; destruct (a2 (cu (t ++ Y) (mm m))) as [x2 c2|e2| |]; try contradiction; try (right; exact I).
    + destruct G as (-> & -> & -> & G). destruct x1; [apply K; auto|]. right. cbn. repeat split. discriminate.
    + right. destruct x1; [|exact I]. destruct (b1 c1); exact I.
    + right. destruct x1; [|exact I]. destruct (b1 c1); exact I.
Qed.
Lemma test_or k j a1 a2 b1 b2 : locb k j a1 a2 -> locb k j b1 b2 -> locb k j (orc a1 b1) (orc a2 b2).
Proof.
  intros [S1 H] [S2 K]. split. { apply shrinks_bind; [exact S1|]. intros []; [|exact S2]. intros c x c' E. injection E as _ <-. lia. }
  intros t m L F. unfold orc, bind. destruct (H t m L F) as [[N G]|G].
  - left. split; [exact N|]. destruct (a1 (cu (t ++ X) m)) as [a c|e| |]; auto. destruct a; [exact G|]. destruct (b1 c) as [b c'|e| |] eqn:E; auto. apply S2 in E. lia.
  - destruct (a1 (cu (t ++ X) m)) as [x1 c1|e1| |]; destruct (a2 (cu (t ++ Y) (mm m))) as [x2 c2|e2| |]; try contradiction; try (right; exact I).
    + destruct G as (-> & -> & -> & G). destruct x1; [|apply K; auto]. right. cbn. auto.
    + right. destruct x1; [exact I|]. destruct (b1 c1); exact I.
    + right. destruct x1; [exact I|]. destruct (b1 c1); exact I.
Qed.
Lemma test_weak k j i a1 a2 : locb k j a1 a2 -> (i <= j)%nat -> locb k i a1 a2.
Proof.
  intros [S1 H] W. split; [exact S1|]. intros t m L F. destruct (H t m L F) as [G|G]; [left; exact G|right].
  destruct (a1 (cu (t ++ X) m)) as [x1 c1|e1| |]; destruct (a2 (cu (t ++ Y) (mm m))) as [x2 c2|e2| |]; auto. destruct G as (-> & -> & -> & G). repeat split. intros E. apply (nolf_le j); auto.
Qed.
(* looking at a character: it may be a line feed, or more is known *)
Lemma locp_peek {B} {_ : Moves B} (k1 k2 : N -> cm B) : loc (k1 0xA) (k2 0xA) -> (forall x, locp 1 (k1 x) (k2 x)) -> loc (bind (peek 0) k1) (bind (peek 0) k2).
Proof.
  intros H K. split; [apply shrinks_bind; [apply shrinks_peek|intros a; apply K]|]. intros t m L F. destruct t as [|x r].
  - destruct tails as [N|[E1 E2]].
    + left. split; [exact N|]. destruct (bind (peek 0) k1 (cu ([] ++ X) m)) as [b c|e| |] eqn:E; auto. apply (shrinks_bind _ _ (shrinks_peek 0) (fun a => proj1 (K a))) in E. exact E.
    + generalize (proj2 (K 0) [] m L). unfold both, bind. rewrite E1, E2. intros G. apply G. intros _ i _ Hl. cbn in Hl. lia.
  - unfold both, bind. rewrite !peek_cu by (cbn; lia). cbn [firstn forallb nth]. destruct (N.eq_dec x 0xA) as [->|Nx]; [apply H; auto|].
    apply K; [exact L|]. apply nolf_S; auto.
Qed.
Lemma test_no k b1 b2 : shrinks b1 -> locb k k (andc (ret false) b1) (andc (ret false) b2).
Proof. intros _. split; [intros c x c' E; injection E as _ <-; lia|]. intros t m L F. right. cbn. auto. Qed.
Lemma shrinks_skip : shrinks skip.
Proof. intros c a c' E. unfold skip in E. destruct (c_text c), (c_unread c); try discriminate. injection E as _ <-. cbn. lia. Qed.
Lemma loc_skip k : locp k skip skip.
Proof.
  split; [apply shrinks_skip|]. intros [|x r] m L _.
  - destruct tails as [N|[E1 E2]]; [left|right; rewrite E1; exact I]. split; [exact N|]. destruct (skip (cu ([] ++ X) m)) as [a c|e| |] eqn:E; auto. apply shrinks_skip in E. exact E.
  - right. cbn. split; [reflexivity|]. exists r, (next_column 1 m). split; [reflexivity|]. split; [|exact (lined_tl _ _ L)].
    unfold cu, next_column, move_mark. cbn. f_equal. f_equal; lia.
Qed.
Lemma shrinks_drop_line k : shrinks (drop_line k).
Proof. intros c a c' E. unfold drop_line in E. destruct (_ && _); [|discriminate]. injection E as _ <-. cbn. rewrite skipn_length. lia. Qed.
Lemma drop_cu k t Z m : (k <= length t)%nat -> drop_line k (cu (t ++ Z) m) = COk tt (cu (skipn k t ++ Z) (next_line (N.of_nat k) m)).
Proof.
  intros L. unfold drop_line, cu. cbn [c_text c_unread c_mark c_plan c_bad]. rewrite !app_length. replace (k <=? S (length t + length Z))%nat with true by (symmetry; apply Nat.leb_le; lia).
  replace (k <=? length t + length Z)%nat with true by (symmetry; apply Nat.leb_le; lia). cbn [andb]. rewrite skipn_app. replace (k - length t)%nat with O by lia. rewrite skipn_O, skipn_length.
  replace (S (length t + length Z) - k)%nat with (S (length t - k + length Z)) by lia. reflexivity.
Qed.
Lemma loc_drop_line j k : locp j (drop_line k) (drop_line k).
Proof.
  split; [apply shrinks_drop_line|]. intros t m L _. destruct (Nat.le_gt_cases k (length t)) as [H|H].
  - right. rewrite !drop_cu by exact H. split; [reflexivity|]. exists (skipn k t), (next_line (N.of_nat k) m). split; [reflexivity|]. split; [|apply lined_skipn; exact L].
    unfold cu, next_line, move_mark. cbn. f_equal. f_equal; lia.
  - destruct tails as [N|[E1 E2]].
    + left. split; [exact N|]. unfold drop_line. destruct (_ && _); [|exact I]. cbn [cu c_text]. rewrite skipn_length, app_length. lia.
    + right. unfold drop_line, cu. cbn [c_text c_unread]. rewrite E1, app_nil_r. replace (k <=? length t)%nat with false by (symmetry; apply Nat.leb_gt; lia). rewrite andb_false_r. exact I.
Qed.
Lemma loc_force_line : loc force_line force_line.
Proof.
  split. { intros c a c' E. unfold force_line in E. injection E as _ <-. destruct (_ =? _); cbn; lia. }
  intros t m L _. right. unfold force_line, cu. cbn [c_mark c_text c_unread c_plan c_bad move_mark m_column m_index m_line]. destruct (m_column m =? 0); (split; [reflexivity|]).
  - exists t, m. auto.
  - exists t, (mkMark (m_index m) (m_line m + 1) 0). split; [reflexivity|]. split; [|exact L]. unfold cu, move_mark. cbn. f_equal. f_equal. lia.
Qed.
Lemma shrinks_loop_n {A B} (body : A -> cm (A + B)) n : (forall a, shrinks (body a)) -> forall a, shrinks (loop_n n body a).
Proof.
  intros H. induction n as [|n IH]; intros a c b c' E; [discriminate|]. cbn [loop_n] in E. destruct (body a c) as [[a'|b'] c1|e| |] eqn:E1; try discriminate; apply H in E1.
  - apply IH in E. lia.
  - injection E as _ <-. exact E1.
Qed.
Lemma both_loop_n {A B} {_ : Moves A} {_ : Moves B} (body1 body2 : A -> cm (A + B)) : (forall a, loc (body1 a) (body2 (mv a))) ->
  forall n1 n2 a t m, lined t -> both (loop_n n1 body1 a) (loop_n n2 body2 (mv a)) t m.
Proof.
  intros H. induction n1 as [|n1 IH]; intros n2 a t m L; [right; exact I|]. destruct n2 as [|n2]; [right; apply agree_fuel|].
  unfold both. cbn [loop_n]. destruct (proj2 (H a) t m L (nolf0 t)) as [[N G]|G].
  - left. split; [exact N|]. destruct (body1 a (cu (t ++ X) m)) as [[a'|b] c|e| |]; auto. destruct (loop_n n1 body1 a' c) as [b c'|e| |] eqn:E; auto.
    apply (shrinks_loop_n body1 n1 (fun a => proj1 (H a))) in E. lia.
  - destruct (body1 a (cu (t ++ X) m)) as [x1 c1|e1| |]; destruct (body2 (mv a) (cu (t ++ Y) (mm m))) as [x2 c2|e2| |]; cbn in G; try contradiction; try (right; exact I).
    + destruct G as (-> & t' & m' & -> & -> & L'). destruct x1 as [a'|b].
      * exact (IH n2 a' t' m' L').
      * right. split; [reflexivity|]. exists t', m'. auto.
    + right. destruct x1; cbn [agree]; [destruct (loop_n n1 body1 a0 c1)|]; exact I.
    + right. destruct x1; cbn [agree]; [destruct (loop_n n1 body1 a0 c1)|]; exact I.
    + right. exact G.
Qed.
Lemma loc_loop {A B} {_ : Moves A} {_ : Moves B} k (body1 body2 : A -> cm (A + B)) a : (forall a, loc (body1 a) (body2 (mv a))) -> locp k (loop body1 a) (loop body2 (mv a)).
Proof.
  intros H. split.
  - intros c b c' E. exact (shrinks_loop_n body1 _ (fun a => proj1 (H a)) a c b c' E).
  - intros t m L _. exact (both_loop_n body1 body2 H _ _ a t m L).
Qed.
End S.
