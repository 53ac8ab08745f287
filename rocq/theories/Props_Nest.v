(* Property C70: the limit on the nesting of collections.  Statements only.  The
   specification is in NestSpec.v.  [nest] is MAX_NESTING_LEVEL, which
   yaml_set_max_nest_level sets.  [t_deep t] is the result of the test the parser makes when
   the token [t] is the next one (parser.c:680, 691, 702, 713): it refuses the collection
   [t] opens. *)
From Verif Require Import Base ReaderModel Utf8Spec CharSpec Types CursorModel ScanModel ScannerModel ScannerSpec NestSpec Nest.

(* C70: a block collection is refused exactly if, with it, at least [nest] collections are
   open *)
Theorem C70_block_exact e nest text bad plan a x b s :
  scans (init_scanner e nest text bad plan) (a ++ x :: b) s -> opens_block x = true ->
  t_deep x = true <-> (nest <= nesting (a ++ [x]))%Z.
Proof. exact (block_exact e nest text bad plan a x b s). Qed.
Print Assumptions C70_block_exact.
(* In whatever order block and flow collections nest, if none has been refused, then
   fewer than [nest] block collections are open, and no more than [nest + 1024]
   collections of both kinds. *)
Theorem C70_bounded e nest text bad plan l s :
  scans (init_scanner e nest text bad plan) l s -> accepted l ->
  (block_depth l <= Z.max 0 (nest - 1))%Z /\ (nesting l <= Z.max 0 (nest + 1024))%Z.
Proof. exact (bounded e nest text bad plan l s). Qed.
Print Assumptions C70_bounded.
(* No collection of a text that is read to its end is refused unless somewhere in the text
   at least [nest] collections are open. *)
Theorem C70_refused_deep e nest text bad plan calls l x :
  scan_all calls (init_scanner e nest text bad plan) = (l, Ended) -> In x l -> t_deep x = true -> reaches nest l.
Proof. exact (refused_deep e nest text bad plan calls l x). Qed.
Print Assumptions C70_refused_deep.

(* "[[[[x]]]]" *)
Definition nested_text : list N := [0x5B; 0x5B; 0x5B; 0x5B; 0x78; 0x5D; 0x5D; 0x5D; 0x5D].
(* The documentation calls [nest] the maximum number of nested collections that are allowed.
   That many and more are: a bracket may turn out to start a simple key, so the scanner has
   read on, here to the end of the line, and the test counts the collections open there. *)
Theorem C70_documented_limit_refuted : exists nest text calls l,
  scan_all calls (init_scanner Utf8Enc nest text false []) = (l, Ended) /\ accepted l /\ reaches (nest + 3) l.
Proof.
  exists 1%Z, nested_text, 40%nat. eexists. split; [vm_compute; reflexivity|]. split.
  - intros t H O. cbn [In] in H. repeat (destruct H as [<- | H]; [reflexivity || discriminate O|]). contradiction.
  - eexists (firstn 5 _), (skipn 5 _). split; [symmetry; apply firstn_skipn|]. vm_compute. discriminate.
Qed.
Print Assumptions C70_documented_limit_refuted.
(* ... and of block collections, that many are not: with a limit of 1, "a: b" is refused *)
Theorem C70_documented_block_limit_refuted : exists nest text calls l x,
  (1 <= nest)%Z /\ scan_all calls (init_scanner Utf8Enc nest text false []) = (l, Ended) /\
  (forall p r, l = p ++ r -> (nesting p <= nest)%Z) /\ In x l /\ opens x = true /\ t_deep x = true.
Proof.
  exists 1%Z, [0x61; 0x3A; 0x20; 0x62], 40%nat. eexists. exists (mkToken TBlockMapStart (mkMark 0 0 0) (mkMark 0 0 0) true).
  split; [lia|]. split; [vm_compute; reflexivity|]. split.
  - intros p r. repeat (destruct p as [|? p]; cbn [app]; [intros _; vm_compute; discriminate|intros [= <- E]; revert E]).
  - split; [right; left; reflexivity|split; reflexivity].
Qed.
Print Assumptions C70_documented_block_limit_refuted.

(* "? - [" LF "     [" LF "     ]]": four collections nest.  With a limit of 4 it is the third
   that is refused, as the scanner has read the start of the fourth by then. *)
Definition mixed_text : list N := [0x3F; 0x20; 0x2D; 0x20; 0x5B; 10; 0x20; 0x20; 0x20; 0x20; 0x20; 0x5B; 10; 0x20; 0x20; 0x20; 0x20; 0x20; 0x5D; 0x5D].
Example C70_reaches : exists l, scan_all 60 (init_scanner Utf8Enc 4 mixed_text false []) = (l, Ended) /\ reaches 4 l /\ ~ accepted l /\
  map t_deep (filter opens l) = [false; false; true; false].
Proof.
  eexists. split; [vm_compute; reflexivity|]. split; [|split; [|reflexivity]].
  - eexists (firstn 7 _), (skipn 7 _). split; [symmetry; apply firstn_skipn|]. vm_compute. discriminate.
  - intros A. pose proof (A (nth 5 _ (mkToken TKey (mkMark 0 0 0) (mkMark 0 0 0) false)) ltac:(apply nth_In; cbn; lia) eq_refl) as H. discriminate H.
Qed.
(* with a limit of 5 none is refused; with a limit of 2, the second, a block collection, is *)
Example C70_accepts : exists l, scan_all 60 (init_scanner Utf8Enc 5 mixed_text false []) = (l, Ended) /\ accepted l /\ reaches 4 l.
Proof.
  eexists. split; [vm_compute; reflexivity|]. split.
  - intros t H O. cbn [In] in H. repeat (destruct H as [<- | H]; [reflexivity || discriminate O|]). contradiction.
  - eexists (firstn 7 _), (skipn 7 _). split; [symmetry; apply firstn_skipn|]. vm_compute. discriminate.
Qed.
Example C70_block : exists a x b s, scans (init_scanner Utf8Enc 2 mixed_text false []) (a ++ x :: b) s /\ opens_block x = true /\ t_deep x = true /\ nesting (a ++ [x]) = 2%Z.
Proof.
  assert (H : exists l, scan_all 60 (init_scanner Utf8Enc 2 mixed_text false []) = (l, Ended) /\ exists a x b, l = a ++ x :: b /\ opens_block x = true /\ t_deep x = true /\ nesting (a ++ [x]) = 2%Z).
  { eexists. split; [vm_compute; reflexivity|]. eexists [_; _; _], _, _. split; [reflexivity|]. repeat split. }
  destruct H as (l & H & a & x & b & -> & O & D & N). apply ended_scans in H as (s & H & _). exists a, x, b, s. auto.
Qed.
