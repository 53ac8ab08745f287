(* Reading bytes through the whole parser: reader, scanner and parser, one after the
   other.  Each is given all that the one before delivers, so the reading is a
   composition of the three models; that it does not matter how the bytes arrive is part
   of the definition. *)
From Verif Require Import Base ReaderModel ReaderSpec Utf8Spec Types TreeSpec GrammarSpec RoundSpec AgreeSpec.
From Verif Require ScannerModel ScannerSpec ParserModel.

(* The text [text] gives the events [es]. *)
Definition delivers (enc : encoding) (nest : Z) (text : list N) (es : list ev) : Prop :=
  exists c tokens, (forall plan n, (c <= n)%nat -> ScannerSpec.scan_all n (ScannerModel.init_scanner enc nest text false plan) = (tokens, ScannerSpec.Ended)) /\
  exists c' evs, (forall n, (c' <= n)%nat -> ParserModel.parse_all n (ParserModel.init_parser tokens) = (evs, ParserModel.Parsed)) /\ map e_ev evs = es.
(* The bytes [input], the encoding of which is not declared, are found to be in [enc] and
   give the events [es]. *)
Definition parsed_as (nest : Z) (input : list N) (enc : encoding) (es : list ev) : Prop :=
  exists text, (forall plan reqs, plan_ok plan -> Forall req_ok reqs -> read_all AnyEnc input plan reqs = Text (map utf8_enc text) enc) /\
    delivers enc nest text es.

(* Not nested too deeply for a parser with the nesting limit [nest] and for the 32-bit
   indentation. *)
Definition shallow (nest : Z) (d : doc_tree) : Prop := (Z.of_nat (height (dt_root d)) < nest)%Z /\ (9 * Z.of_nat (height (dt_root d)) <= 2147483647)%Z.

(* What is read of an event that is written in canonical mode.  The tag "!" is added to
   an untagged scalar if its tag is not implied in a quoted style. *)
Definition canonical_event (e : ev) : ev :=
  match e with
  | EScalar a t v pi qi _ =>
      let t' := match t with Some t => Some (utf8 t) | None => if qi then None else Some [0x21] end in
      EScalar a t' (utf8 v) (plain_implicit_of t' DoubleQuoted) (quoted_implicit_of t' DoubleQuoted) DoubleQuoted
  | ESeqStart a t i _ => let t' := option_map utf8 t in ESeqStart a t' (implicit_of t') FlowColl
  | EMapStart a t i _ => let t' := option_map utf8 t in EMapStart a t' (implicit_of t') FlowColl
  | e => e
  end.
Definition canonical_doc (d d' : doc_tree) : Prop :=
  dt_version d' = dt_version d /\ dt_tags d' = utf8_tags (dt_tags d) /\ dt_start_implicit d' = false /\ (dt_end_implicit d = false -> dt_end_implicit d' = false) /\
  events_of (dt_root d') = map canonical_event (events_of (dt_root d)).
