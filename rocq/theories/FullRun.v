(* Running the scanner on a text that is completely in the buffer. *)
From Verif Require Import Base ReaderModel Utf8Spec CharSpec Types CursorModel ScanModel PlanFree.

Definition fc (t : list N) (m : mark) : cur := mkCur t (S (length t)) [] false m.
Lemma fc_full c : full c = fc (c_text c) (c_mark c).
Proof. reflexivity. Qed.

Section Bind.
  Context {B : Type}.
  Lemma r_bind {A A'} (m : cm A) (f : A -> cm A') (k : A' -> cm B) c : bind (bind m f) k c = bind m (fun x => bind (f x) k) c.
  Proof. unfold bind. destruct (m c); reflexivity. Qed.
  Lemma r_ret {A} (a : A) (k : A -> cm B) c : bind (ret a) k c = k a c.
  Proof. reflexivity. Qed.
  Lemma r_cache n (k : unit -> cm B) t m : bind (cache n) k (fc t m) = k tt (fc t m).
  Proof. unfold bind. unfold fc. rewrite cache_full. reflexivity. Qed.
  Lemma r_mark (k : mark -> cm B) t m : bind get_mark k (fc t m) = k m (fc t m).
  Proof. reflexivity. Qed.
  Lemma r_column (k : N -> cm B) t m : bind column k (fc t m) = k (m_column m) (fc t m).
  Proof. reflexivity. Qed.
  Lemma r_peek0 (k : N -> cm B) t m : bind (peek 0) k (fc t m) = k (nth 0 t 0) (fc t m).
  Proof. reflexivity. Qed.
  Lemma r_peek n (k : N -> cm B) t m : (n <= length t)%nat -> forallb is_ascii (firstn n t) = true -> bind (peek n) k (fc t m) = k (nth n t 0) (fc t m).
  Proof. intros H A. unfold bind, peek. cbn [fc c_unread c_text]. rewrite A. replace (n <? S (length t))%nat with true by (symmetry; apply Nat.ltb_lt; lia). reflexivity. Qed.
  Lemma r_check0 p (k : bool -> cm B) t m : bind (check 0 p) k (fc t m) = k (p (nth 0 t 0)) (fc t m).
  Proof. reflexivity. Qed.
  Lemma r_check n p (k : bool -> cm B) t m : (n <= length t)%nat -> forallb is_ascii (firstn n t) = true -> bind (check n p) k (fc t m) = k (p (nth n t 0)) (fc t m).
  Proof. intros H A. unfold check. rewrite r_bind, r_peek by assumption. reflexivity. Qed.
  Lemma r_and (a b : cm bool) (k : bool -> cm B) c : bind (andc a b) k c = bind a (fun x => bind (if x then b else ret false) k) c.
  Proof. apply r_bind. Qed.
  Lemma r_or (a b : cm bool) (k : bool -> cm B) c : bind (orc a b) k c = bind a (fun x => bind (if x then ret true else b) k) c.
  Proof. apply r_bind. Qed.
  Lemma r_skip (k : unit -> cm B) x t m : bind skip k (fc (x :: t) m) = k tt (fc t (next_column 1 m)).
  Proof. reflexivity. Qed.
  Lemma r_read s (k : list N -> cm B) x t m : bind (read s) k (fc (x :: t) m) = k (s ++ utf8_enc x) (fc t (next_column 1 m)).
  Proof. reflexivity. Qed.
  Lemma r_put s bs (k : list N -> cm B) c : (length bs <= room)%nat -> bind (put s bs) k c = k (s ++ bs) c.
  Proof. intros H. unfold put. apply Nat.leb_le in H. rewrite H. reflexivity. Qed.
End Bind.
Ltac run1 := first [rewrite r_bind | rewrite r_ret | rewrite r_cache | rewrite r_mark | rewrite r_column | rewrite r_peek0 | rewrite r_check0 | rewrite r_and | rewrite r_or | rewrite r_skip | rewrite r_read].
Ltac run := repeat first [run1 | progress cbv iota].

(* loops *)
Lemma loop_mono {A B} (body : A -> cm (A + B)) : forall n n' a c, (n <= n')%nat -> loop_n n body a c <> CFuel -> loop_n n' body a c = loop_n n body a c.
Proof.
  induction n as [|n IH]; intros n' a c L H; [contradiction H; reflexivity|]. destruct n' as [|n']; [lia|]. cbn [loop_n] in *.
  destruct (body a c) as [[a'|b] c'|e| |]; auto. apply IH; [lia|exact H].
Qed.
Lemma loop_go {A B} (body : A -> cm (A + B)) a c a' c' b c2 : body a c = COk (inl a') c' -> (length (c_text c') < length (c_text c))%nat ->
  loop body a' c' = COk b c2 -> loop body a c = COk b c2.
Proof.
  intros E L H. unfold loop in *. cbn [loop_n]. rewrite E. rewrite (loop_mono body (S (length (c_text c')))); [exact H|lia|]. rewrite H. discriminate.
Qed.
Lemma loop_end {A B} (body : A -> cm (A + B)) a c b c' : body a c = COk (inr b) c' -> loop body a c = COk b c'.
Proof. intros E. unfold loop. cbn [loop_n]. rewrite E. reflexivity. Qed.

(* line breaks *)
Lemma r_read_line {B} s (k : list N -> cm B) x t m : is_break x = true -> x <> 0xD ->
  bind (read_line s) k (fc (x :: t) m) = k (s ++ (if (x =? 0x2028) || (x =? 0x2029) then utf8_enc x else [0xA])) (fc t (next_line 1 m)).
Proof.
  intros H N. unfold read_line. run. unfold is_crlf. run. cbn [nth]. unfold eqc. destruct (N.eqb_spec x 0xD); [contradiction|]. run.
  cbn [nth]. destruct (N.eqb_spec x 0xD); [contradiction|]. cbn [orb]. unfold is_break in H.
  destruct (N.eqb_spec x 0xA) as [->|]; [reflexivity|]. cbn [orb].
  destruct (N.eqb_spec x 0x85) as [->|]; [reflexivity|]. destruct (N.eqb_spec x 0x2028) as [->|]; [reflexivity|]. destruct (N.eqb_spec x 0x2029) as [->|]; [reflexivity|].
  destruct (N.eqb_spec x 0xD); [contradiction|]. discriminate H.
Qed.
Lemma r_read_line_cr {B} s (k : list N -> cm B) t m : nth 0 t 0 <> 0xA ->
  bind (read_line s) k (fc (0xD :: t) m) = k (s ++ [0xA]) (fc t (next_line 1 m)).
Proof.
  intros N. unfold read_line. run. unfold is_crlf. run. unfold eqc at 1. cbn [nth]. rewrite N.eqb_refl. cbv iota. rewrite (r_check 1); [|cbn; lia|reflexivity]. unfold eqc. cbn [nth]. destruct t as [|y t].
  - cbn. reflexivity.
  - cbn [nth] in N. cbn [nth]. destruct (N.eqb_spec y 0xA); [contradiction|]. reflexivity.
Qed.
Lemma r_read_line_crlf {B} s (k : list N -> cm B) t m :
  bind (read_line s) k (fc (0xD :: 0xA :: t) m) = k (s ++ [0xA]) (fc t (next_line 2 m)).
Proof. reflexivity. Qed.
