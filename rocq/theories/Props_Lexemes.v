(* Property C69: which tokens a text is made of.  Statement only.  The specification is in
   LexemeSpec.v and LexSpec.v.  [bad]: the input goes on with something that cannot be
   decoded; [plan]: how much of the text is in the buffer at each request. *)
From Verif Require Import Base ReaderModel Utf8Spec CharSpec Types CursorModel ScanModel ScannerModel ScannerSpec RoundSpec LexSpec LexemeSpec LexemeLoop LexemeUnique.

(* C69: if the scanner reads a text to its end, the tokens it hands out that are spelled by
   characters are what the text reads as, and the text cannot be read in another way.  If
   it fails, then because the input cannot be decoded, a limit of the implementation is
   exceeded, or a key is not followed by ':' - or else the text cannot be read as tokens:
   it can be up to a place where no token is spelled or the one that is may not be. *)
Theorem C69_tokens_of_text e nest text bad plan :
  exists l o, scan_all (4 * length text + 4) (init_scanner e nest text bad plan) = (l, o) /\
  match o with
  | Ended => forall k, reads_all text k <-> k = words l
  | Failed er => se_problem er = SReader /\ bad = true \/ se_problem er = SLimit \/ se_problem er = SNoColon \/
      (exists more, reads_until text (words l ++ more)) /\ forall k, ~ reads_all text k
  | Unfinished | Undefined => False
  end.
Proof. exact (tokens_of_text e nest text bad plan). Qed.
Print Assumptions C69_tokens_of_text.
(* ... and at any time before, it has handed out a beginning of that *)
Theorem C69_beginning e nest text bad plan l s k :
  scans (init_scanner e nest text bad plan) l s -> reads_all text k -> exists more, k = words l ++ more.
Proof. exact (lexemes_prefix text e nest bad plan l s k). Qed.
Print Assumptions C69_beginning.

(* "a: [b,-c]" LF "'d' : |" LF " e" *)
Definition lexeme_text : list N := [0x61; 0x3A; 0x20; 0x5B; 0x62; 0x2C; 0x2D; 0x63; 0x5D; 10; 0x27; 0x64; 0x27; 0x20; 0x3A; 0x20; 0x7C; 10; 0x20; 0x65].
Example C69_read : exists l, scan_all (4 * length lexeme_text + 4) (init_scanner Utf8Enc 100 lexeme_text false []) = (l, Ended) /\
  words l = [TScalar [0x61] Plain; TValue; TFlowSeqStart; TScalar [0x62] Plain; TFlowEntry; TScalar [0x2D; 0x63] Plain; TFlowSeqEnd;
    TScalar [0x64] SingleQuoted; TValue; TScalar [0x65] Literal].
Proof. eexists. vm_compute. split; reflexivity. Qed.
(* "a: - b": a block entry may not be behind a key on its line *)
Definition entry_text : list N := [0x61; 0x3A; 0x20; 0x2D; 0x20; 0x62].
Example C69_refused : exists l er, scan_all (4 * length entry_text + 4) (init_scanner Utf8Enc 100 entry_text false []) = (l, Failed er) /\
  se_problem er = SBlockEntry /\ words l = [TScalar [0x61] Plain; TValue].
Proof. eexists. eexists. vm_compute. repeat split; reflexivity. Qed.
(* "[a" reads as two tokens, as written in the specification *)
Example C69_spec : reads_all [0x5B; 0x61] [TFlowSeqStart; TScalar [0x61] Plain].
Proof.
  assert (R1 : reads [0x5B; 0x61] 1 [(-1)%Z] true [None; Some mark0] [0x61] ([] ++ [TFlowSeqStart])).
  { apply (reads_token [0x5B; 0x61] 0 [(-1)%Z] true [None] [0x5B; 0x61] [] [0x5B; 0x61] true TFlowSeqStart false [0x61]).
    - apply reads_nothing.
    - apply gap_end; [|reflexivity]. exists [], [], []. split; [reflexivity|]. split; [reflexivity|]. split; [constructor|]. split; [intros [H|[H _]]; discriminate|]. left. split; [reflexivity|discriminate].
    - apply lex_bracket. left. reflexivity.
    - intros _. exact I. }
  assert (R2 : reads [0x5B; 0x61] 1 [(-1)%Z] false [Some (mkMark 1 0 1); Some mark0] [] ([TFlowSeqStart] ++ [TScalar [0x61] Plain])).
  { apply (reads_token [0x5B; 0x61] 1 [(-1)%Z] true [None; Some mark0] [0x61] [TFlowSeqStart] [0x61] true (TScalar [0x61] Plain) false []).
    - exact R1.
    - apply gap_end; [|reflexivity]. exists [], [], []. split; [reflexivity|]. split; [reflexivity|]. split; [constructor|]. split; [intros [H|[H _]]; discriminate|]. left. split; [reflexivity|discriminate].
    - apply (lex_plain _ _ _ [0x61] [0x61]).
      + split; [reflexivity|]. left. cbn. intros H. repeat (destruct H as [H|H]; [discriminate|]). exact H.
      + discriminate.
      + apply plain_char; [|apply (plain_end true _ [] []); [constructor|left; left; reflexivity]].
        repeat split; try reflexivity; try discriminate.
    - discriminate. }
  exists 1, [(-1)%Z], false, [Some (mkMark 1 0 1); Some mark0], [], [], false. split; [exact R2|]. split; [|reflexivity].
  apply gap_end; [|reflexivity]. exists [], [], []. split; [reflexivity|]. split; [reflexivity|]. split; [constructor|]. split; [intros [H|[H _]]; discriminate|]. left. split; [reflexivity|discriminate].
Qed.
