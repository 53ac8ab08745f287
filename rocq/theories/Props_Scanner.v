(* Properties C13-C19: the scanner (scanner.c).  Statements only.
   [init_scanner e nest T bad plan] is a parser object before the first call, for an
   input whose characters, as the reader delivers them (C01-C05), are [T]; [bad]
   says that the reader fails after them, [plan] how far it happens to read ahead;
   [nest] is the nesting limit. *)
From Verif Require Import Base ReaderModel Utf8Spec CharSpec Types CursorModel ScanModel ScannerModel ScannerSpec ScannerFinal PlanFree RequiredSpec RequiredLoop.

Definition fresh (T : list N) : sc := init_scanner Utf8Enc 1000%Z T false [].
(* "%YAML 1.2" LF "---" LF "- a: [b]" LF *)
Definition sample : list N :=
  [37;89;65;77;76;32;49;46;50;10; 45;45;45;10; 45;32;97;58;32;91;98;93;10].
Definition at_ (i l c : N) : mark := mkMark i l c.
Definition sample_tokens : list token :=
  [mkToken (TStreamStart Utf8Enc) (at_ 0 0 0) (at_ 0 0 0) false; mkToken (TVersion 1 2) (at_ 0 0 0) (at_ 9 0 9) false;
   mkToken TDocStart (at_ 10 1 0) (at_ 13 1 3) false; mkToken TBlockSeqStart (at_ 14 2 0) (at_ 14 2 0) false;
   mkToken TBlockEntry (at_ 14 2 0) (at_ 15 2 1) false; mkToken TBlockMapStart (at_ 16 2 2) (at_ 16 2 2) false;
   mkToken TKey (at_ 16 2 2) (at_ 16 2 2) false; mkToken (TScalar [97] Plain) (at_ 16 2 2) (at_ 17 2 3) false;
   mkToken TValue (at_ 17 2 3) (at_ 18 2 4) false; mkToken TFlowSeqStart (at_ 19 2 5) (at_ 20 2 6) false;
   mkToken (TScalar [98] Plain) (at_ 20 2 6) (at_ 21 2 7) false; mkToken TFlowSeqEnd (at_ 21 2 7) (at_ 22 2 8) false;
   mkToken TBlockEnd (at_ 23 3 0) (at_ 23 3 0) false; mkToken TBlockEnd (at_ 23 3 0) (at_ 23 3 0) false;
   mkToken TStreamEnd (at_ 23 3 0) (at_ 23 3 0) false].
Example sample_scanned : scan_all 16 (fresh sample) = (sample_tokens, Ended).
Proof. vm_compute. reflexivity. Qed.
Example sample_history : exists s, scans (fresh sample) sample_tokens s.
Proof. exact (scan_all_scans 16 _ _ _ sample_scanned). Qed.
(* "a: 1" LF "b" LF *)
Definition wrong : list N := [97;58;32;49;10;98;10].
Example wrong_scanned : snd (scan_all 16 (fresh wrong)) = Failed (mkSerr SNoColon (Some (at_ 5 1 0)) (at_ 7 2 0)).
Proof. vm_compute. reflexivity. Qed.

(* C13: whatever is called however often, the scanner does nothing undefined: it reads
   no character that it has not requested, does not pass the final NUL, pops no empty
   stack and dequeues from no empty queue (each of these is [ScanBad] in the model). *)
Theorem C13_safe e nest T bad plan s : calls (init_scanner e nest T bad plan) s -> scan s <> ScanBad.
Proof. exact (scan_safe e nest T bad plan s). Qed.
Print Assumptions C13_safe.
Example C13_nonvacuous : exists s, calls (fresh sample) s /\ s <> fresh sample.
Proof.
  destruct (scan (fresh sample)) as [t s1| | | |] eqn:E; try discriminate.
  exists s1. split; [eapply calls_token; [exact E|constructor]|]. intros ->. vm_compute in E. discriminate.
Qed.
(* the outcome is there: a scanner whose queue is empty though a token is marked as
   available would dequeue from an empty queue *)
Example C13_not_trivial : exists s, scan s = ScanBad.
Proof. exists (mkSc (init_cur [] false []) Utf8Enc true false None 0 [] 0 true [] 0%Z false [] 1000%Z). vm_compute. reflexivity. Qed.

(* C14: every call returns, ... *)
Theorem C14_returns e nest T bad plan s : calls (init_scanner e nest T bad plan) s -> scan s <> ScanFuel.
Proof. exact (scan_returns e nest T bad plan s). Qed.
Print Assumptions C14_returns.
(* ... the number of tokens is bounded by the length of the input, ... *)
Theorem C14_finite e nest T bad plan l s :
  scans (init_scanner e nest T bad plan) l s -> (length l <= 4 * length T + 2)%nat.
Proof. exact (scan_count e nest T bad plan l s). Qed.
Print Assumptions C14_finite.
(* ... and repeated calls come to the end of the stream or to an error. *)
Theorem C14_ends e nest T bad plan :
  exists l o, scan_all (4 * length T + 4) (init_scanner e nest T bad plan) = (l, o) /\ (o = Ended \/ exists er, o = Failed er).
Proof. exact (scan_all_ends e nest T bad plan). Qed.
Print Assumptions C14_ends.

(* C15: the first token is STREAM-START, with the encoding found, and no other is; *)
Theorem C15_first e nest T bad plan t l s :
  scans (init_scanner e nest T bad plan) (t :: l) s ->
  t_tok t = TStreamStart e /\ t_start t = mark0 /\ t_end t = mark0 /\ Forall (fun x => forall e', t_tok x <> TStreamStart e') l.
Proof. exact (scan_first e nest T bad plan t l s). Qed.
Print Assumptions C15_first.
(* nothing follows a STREAM-END; *)
Theorem C15_last e nest T bad plan l t l' s :
  scans (init_scanner e nest T bad plan) (l ++ t :: l') s -> t_tok t = TStreamEnd -> l' = [] /\ scan s = ScanNothing s.
Proof. exact (scan_last e nest T bad plan l t l' s). Qed.
Print Assumptions C15_last.
(* if a call after tokens only returns no token, though there is no error, the last
   token was STREAM-END; *)
Theorem C15_end e nest T bad plan l s s' :
  scans (init_scanner e nest T bad plan) l s -> scan s = ScanNothing s' -> s' = s /\ exists l' t, l = l' ++ [t] /\ t_tok t = TStreamEnd.
Proof. exact (scan_end e nest T bad plan l s s'). Qed.
Print Assumptions C15_end.
(* once a call has failed or returned no token, so will all further ones. *)
Theorem C15_stays e nest T bad plan s s' :
  calls (init_scanner e nest T bad plan) s -> scan s = ScanNothing s' \/ scan s = ScanFail s' -> scan s' = ScanNothing s'.
Proof. exact (scan_stays e nest T bad plan s s'). Qed.
Print Assumptions C15_stays.

(* C16: among the tokens returned and queued, no BLOCK-END is without a START that it
   closes; block tokens occur in block context only; a document indicator, directive or
   STREAM-END in block context finds all block collections closed. *)
Theorem C16_balanced e nest T bad plan l s a x b :
  scans (init_scanner e nest T bad plan) l s -> l ++ s_tokens s = a ++ x :: b ->
  (0 <= block_depth a)%Z /\ (is_block_token x = true -> flow_depth a = 0) /\ (t_tok x = TBlockEnd -> (0 < block_depth a)%Z)
  /\ (is_outer x = true -> flow_depth a = 0 -> block_depth a = 0%Z).
Proof. exact (scan_block e nest T bad plan l s a x b). Qed.
Print Assumptions C16_balanced.
Example C16_nonvacuous : exists a x, sample_tokens = a ++ [x] /\ is_outer x = true /\ flow_depth a = 0
  /\ block_depth (firstn 9 a) = 2%Z.
Proof. exists (firstn 14 sample_tokens), (mkToken TStreamEnd (at_ 23 3 0) (at_ 23 3 0) false). repeat split. Qed.
(* In flow context they need not be closed: "- [a" is scanned to its end without an
   error, and its BLOCK-SEQUENCE-START stays open (the event parser rejects it). *)
Theorem C16_unclosed_flow_refuted : exists T l a x s, scans (fresh T) l s /\ scan s = ScanNothing s /\ l = a ++ [x]
  /\ t_tok x = TStreamEnd /\ block_depth a = 1%Z.
Proof.
  set (T := [45;32;91;97]). set (l := fst (scan_all 9 (fresh T))).
  assert (E : scan_all 9 (fresh T) = (l, Ended)) by (vm_compute; reflexivity).
  destruct (scan_all_scans 9 _ _ _ E) as [s H].
  assert (El : l = firstn 5 l ++ [mkToken TStreamEnd (at_ 4 1 0) (at_ 4 1 0) false]) by (vm_compute; reflexivity).
  exists T, l, (firstn 5 l), (mkToken TStreamEnd (at_ 4 1 0) (at_ 4 1 0) false), s. split; [exact H|].
  split; [|split; [exact El|split; reflexivity]]. rewrite El in H.
  exact (proj2 (scan_last _ _ _ _ _ _ _ _ _ H eq_refl)).
Qed.
Print Assumptions C16_unclosed_flow_refuted.

(* C17: a KEY token that is not written as '?' is followed by a node (or the properties
   of an empty one) that starts where the KEY token is, and then by a VALUE token on the
   same line and at most 1024 characters later. *)
Theorem C17_implicit_keys e nest T bad plan l s a k b :
  scans (init_scanner e nest T bad plan) l s -> l ++ s_tokens s = a ++ k :: b -> is_implicit_key k ->
  exists n v c, b = n ++ v :: c /\ n <> [] /\ node_tokens (flow_depth a) n /\ t_tok v = TValue
    /\ m_line (t_start v) = m_line (t_start k) /\ m_index (t_start v) <= m_index (t_start k) + 1024
    /\ (forall y r, n = y :: r -> t_start y = t_start k).
Proof. exact (scan_implicit e nest T bad plan l s a k b). Qed.
Print Assumptions C17_implicit_keys.
Example C17_nonvacuous : exists a k b, sample_tokens = a ++ k :: b /\ is_implicit_key k.
Proof. exists (firstn 6 sample_tokens), (mkToken TKey (at_ 16 2 2) (at_ 16 2 2) false), (skipn 7 sample_tokens). repeat split. Qed.
(* A node that is the first thing on its line, at the column of the innermost open block
   collection and in no flow collection, must be a key: a KEY token comes right before
   it, so that it is an error if no ':' follows as above ([wrong], below).  Nodes written
   with '|' or '>' are never keys and are not meant. *)
Theorem C17_required_keys e nest T bad plan l s a x b :
  scans (init_scanner e nest T bad plan) l s -> l = a ++ x :: b -> at_key_place T a x -> after_key a x.
Proof. exact (scan_required e nest T bad plan l s a x b). Qed.
Print Assumptions C17_required_keys.
Theorem C17_required_value e nest T bad plan l s a x b :
  scans (init_scanner e nest T bad plan) l s -> l = a ++ x :: b -> at_key_place T a x ->
  exists n v c, x :: b ++ s_tokens s = n ++ v :: c /\ n <> [] /\ node_tokens 0 n /\ t_tok v = TValue
    /\ m_line (t_start v) = m_line (t_start x) /\ m_index (t_start v) <= m_index (t_start x) + 1024.
Proof. exact (scan_required_value e nest T bad plan l s a x b). Qed.
Print Assumptions C17_required_value.
(* "a: 1" LF "b: 2" LF *)
Definition two_keys : list N := [97;58;32;49;10;98;58;32;50;10].
Example C17_required_nonvacuous : exists s l a x b, scans (fresh two_keys) l s /\ l = a ++ x :: b /\ t_tok x = TScalar [98] Plain /\ at_key_place two_keys a x.
Proof.
  destruct (scan_all_scans 16 (fresh two_keys) (fst (scan_all 16 (fresh two_keys))) Ended) as [s H]; [vm_compute; reflexivity|].
  exists s, (fst (scan_all 16 (fresh two_keys))), (firstn 7 (fst (scan_all 16 (fresh two_keys)))), (mkToken (TScalar [98] Plain) (at_ 5 1 0) (at_ 6 1 1) false), (skipn 8 (fst (scan_all 16 (fresh two_keys)))).
  split; [exact H|]. split; [vm_compute; reflexivity|]. split; [reflexivity|].
  split; [reflexivity|]. split; [reflexivity|]. split; [vm_compute; reflexivity|]. split; [vm_compute; reflexivity|].
  intros i Hi1 Hi2. cbn in Hi1, Hi2. lia.
Qed.
(* "a: 1" LF "|" LF " x": the block scalar in the second line is not a key, and no error *)
Example C17_block_scalar : map t_tok (fst (scan_all 16 (fresh [97;58;32;49;10;124;10;32;120]))) =
  [TStreamStart Utf8Enc; TBlockMapStart; TKey; TScalar [97] Plain; TValue; TScalar [49] Plain; TScalar [120] Literal; TBlockEnd; TStreamEnd].
Proof. vm_compute. reflexivity. Qed.

(* C18: the marks of the tokens are positions in the text; BLOCK-END and STREAM-END
   at the end of the input may instead be at the line after the last one; *)
Theorem C18_token_marks e nest T bad plan l s t :
  scans (init_scanner e nest T bad plan) l s -> In t l ->
  (is_position T (t_start t) /\ is_position T (t_end t)) \/
  ((t_tok t = TBlockEnd \/ t_tok t = TStreamEnd) /\ t_end t = t_start t /\ is_end_position T (t_start t)).
Proof. exact (scan_marks e nest T bad plan l s t). Qed.
Print Assumptions C18_token_marks.
(* so are the marks of an error; *)
Theorem C18_error_marks e nest T bad plan s s' :
  calls (init_scanner e nest T bad plan) s -> scan s = ScanFail s' ->
  exists er, s_error s' = Some er /\ is_end_position T (se_mark er) /\ match se_context er with Some m => is_position T m | None => True end.
Proof. exact (scan_error_mark e nest T bad plan s s'). Qed.
Print Assumptions C18_error_marks.
(* the tokens do not overlap and come in the order of the text. *)
Theorem C18_in_order e nest T bad plan l s : scans (init_scanner e nest T bad plan) l s -> in_order l.
Proof. exact (scan_in_order e nest T bad plan l s). Qed.
Print Assumptions C18_in_order.
Example C18_positions : map (position [97;13;10;98;0x2028;99]) [1;2;3;4;5;6]%nat =
  [at_ 1 0 1; at_ 2 0 2; at_ 3 1 0; at_ 4 1 1; at_ 5 2 0; at_ 6 2 1].
Proof. reflexivity. Qed.

(* C19: a version token stands for "%YAML", blanks, and two decimal numbers of at most
   nine digits with '.' between them, neither of them cut short, and carries their
   values, which are below 10^9 < 2^31; *)
Theorem C19_version e nest T bad plan l s t major minor :
  scans (init_scanner e nest T bad plan) l s -> In t l -> t_tok t = TVersion major minor ->
  version_at (skipn (N.to_nat (m_index (t_start t))) T) major minor /\ major < 10 ^ 9 /\ minor < 10 ^ 9.
Proof. exact (scan_version e nest T bad plan l s t major minor). Qed.
Print Assumptions C19_version.
Example C19_nonvacuous : In (mkToken (TVersion 1 2) (at_ 0 0 0) (at_ 9 0 9) false) sample_tokens.
Proof. right. left. reflexivity. Qed.
(* a longer number is an error. *)
Theorem C19_too_long c start ds r :
  (1 <= c_unread c)%nat -> c_text c = ds ++ r -> Forall (fun x => 0x30 <= x <= 0x39) ds -> (10 <= length ds)%nat ->
  exists e, scan_version_number start c = CErr e.
Proof. exact (fun U => long_number (c_text c) (c_mark c) c start ds r (hold_start c U)). Qed.
Print Assumptions C19_too_long.
Example C19_too_long_nonvacuous : exists e, scan_version_number (at_ 0 0 0) (mkCur (repeat 0x31 10) 1 [] false (at_ 6 0 6)) = CErr e.
Proof. eexists. vm_compute. reflexivity. Qed.

(* C51: tokens, marks and outcome are the same however far the reader happens to have
   read ahead at each request (and so, with C01, however the input is cut into pieces). *)
Theorem C51_delivery_independent e nest T plan plan' n :
  scan_all n (init_scanner e nest T false plan) = scan_all n (init_scanner e nest T false plan').
Proof. exact (scan_plan_free e nest T plan plan' n). Qed.
Print Assumptions C51_delivery_independent.
(* the two runs do differ: in what is left in the buffer *)
Example C51_nonvacuous : let run plan := match scan (init_scanner Utf8Enc 1000%Z sample false plan) with ScanToken _ s => c_unread (s_cur s) | _ => O end in
  run [] <> run [5%nat].
Proof. vm_compute. discriminate. Qed.
