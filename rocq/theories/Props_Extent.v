(* Property C76: an event begins and ends with the tokens it is made from.  Statements only.
   [made] and [spans] are in ExtentSpec.v. *)
From Verif Require Import Base Types ReaderModel CursorModel ScannerModel ScannerSpec ScannerFinal LexSpec LexemeSpec SpeltSpec ParserModel ExtentSpec Extent Props_Spelt.

(* C76: whatever the tokens and however often yaml_parser_parse is called, the events are made
   one after the other from consecutive pieces of the tokens, and each has its marks from the
   piece it is made from. *)
Theorem C76_extents n l es o : parse_all n (init_parser l) = (es, o) -> made es l.
Proof. exact (made_parsed n l es o). Qed.
Print Assumptions C76_extents.

(* C76: so between the marks of the event of a scalar in quotes without properties is the
   scalar in the text, with its quotation marks. *)
Theorem C76_quotes e nest T bad plan l s n es o x v i j single :
  scans (init_scanner e nest T bad plan) l s -> parse_all n (init_parser l) = (es, o) -> In x es ->
  e_ev x = EScalar None None v i j (if single : bool then SingleQuoted else DoubleQuoted) ->
  exists before body after, T = before ++ quote single :: body ++ quote single :: after /\
    e_start x = position T (length before) /\ e_end x = position T (S (S (length before + length body))).
Proof.
  intros H P I K. destruct (scalar_token n l es o x None None v i j _ P I K ltac:(destruct single; discriminate)) as (t & It & Et & Ee & Es).
  rewrite (Es eq_refl eq_refl), Ee. exact (C75_quotes e nest T bad plan l s t v single H It Et).
Qed.
Print Assumptions C76_quotes.

(* C76: and with properties, the event ends just behind the closing quotation mark. *)
Theorem C76_quotes_end e nest T bad plan l s n es o x a t v i j single :
  scans (init_scanner e nest T bad plan) l s -> parse_all n (init_parser l) = (es, o) -> In x es ->
  e_ev x = EScalar a t v i j (if single : bool then SingleQuoted else DoubleQuoted) ->
  exists before after, T = before ++ quote single :: after /\ e_end x = position T (S (length before)).
Proof.
  intros H P I K. destruct (scalar_token n l es o x a t v i j _ P I K ltac:(destruct single; discriminate)) as (k & It & Et & Ee & _).
  destruct (C75_quotes e nest T bad plan l s k v single H It Et) as (before & body & after & E1 & _ & E3).
  exists (before ++ quote single :: body), after. split; [rewrite <- app_assoc; exact E1|]. rewrite Ee, E3. f_equal. rewrite app_length. cbn [length]. lia.
Qed.
Print Assumptions C76_quotes_end.

(* "a:" LF "- &x 'q'" LF "-" LF "b: [c: d]": the spans of the events *)
Definition extent_text : list N := [0x61; 0x3A; 10; 0x2D; 0x20; 0x26; 0x78; 0x20; 0x27; 0x71; 0x27; 10; 0x2D; 10; 0x62; 0x3A; 0x20; 0x5B; 0x63; 0x3A; 0x20; 0x64; 0x5D].
Definition extent_tokens : list token := fst (scan_all 40 (init_scanner Utf8Enc 100 extent_text false [])).
Definition extent_events : list event := fst (parse_all 40 (init_parser extent_tokens)).
Example C76_spans : map (fun x => (e_ev x, m_index (e_start x), m_index (e_end x))) extent_events =
  [(EStreamStart Utf8Enc, 0, 0); (EDocStart None [] true, 0, 0); (EMapStart None None true BlockColl, 0, 0);
   (EScalar None None [97] true false Plain, 0, 1); (ESeqStart None None true BlockColl, 3, 4);
   (EScalar (Some [120]) None [113] false true SingleQuoted, 5, 11);
   (EScalar None None [] true false Plain, 13, 13); (ESeqEnd, 14, 14);
   (EScalar None None [98] true false Plain, 14, 15); (ESeqStart None None true FlowColl, 17, 18);
   (EMapStart None None true FlowColl, 18, 18); (EScalar None None [99] true false Plain, 18, 19);
   (EScalar None None [100] true false Plain, 21, 22); (EMapEnd, 22, 22); (ESeqEnd, 22, 23);
   (EMapEnd, 23, 23); (EDocEnd true, 23, 23); (EStreamEnd, 23, 23)].
Proof. vm_compute. reflexivity. Qed.
Example C76_scanned : exists s, scans (init_scanner Utf8Enc 100 extent_text false []) extent_tokens s.
Proof.
  unfold extent_tokens. destruct (scan_all 40 (init_scanner Utf8Enc 100 extent_text false [])) as [l o] eqn:E. exact (scan_all_scans 40 _ _ _ E).
Qed.
(* an anchor and a scalar: the event begins with the anchor, and could not begin with the scalar *)
Definition an_anchor : token := mkToken (TAnchor [120]) (mkMark 0 0 0) (mkMark 2 0 2) false.
Definition a_scalar : token := mkToken (TScalar [113] SingleQuoted) (mkMark 3 0 3) (mkMark 6 0 6) false.
Definition its_event (m : mark) : event := mkEvent (EScalar (Some [120]) None [113] false true SingleQuoted) m (mkMark 6 0 6).
Example C76_begins : spans (its_event (mkMark 0 0 0)) [an_anchor; a_scalar] [].
Proof. apply (sp_scalar [] [an_anchor] a_scalar [113] SingleQuoted (Some [120]) None false true []); repeat constructor. Qed.
Example C76_not_later : ~ spans (its_event (mkMark 3 0 3)) [an_anchor; a_scalar] [].
Proof.
  intros H. inversion H as [| | | | | | |ls ps k v' st' a' t' i' j' nx' H1 H2 H3 H4 E1 E2 E3| | | | | |ls k e' nx' H1 H2|]; subst.
  - destruct ls as [|y ls].
    + destruct ps as [|p [|p2 ps]]; cbn in E2; [discriminate| |destruct ps; discriminate]. injection E2 as E2 _. subst p. discriminate.
    + injection E2 as E2 _. subst y. inversion H1; subst. contradiction.
  - destruct (t_tok k); contradiction.
Qed.
