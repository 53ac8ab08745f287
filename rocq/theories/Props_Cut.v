(* Property C72: input that cannot be read to its end.  Statements only.  The
   specification is in CutSpec.v: [given_by] are the characters that the reader hands out,
   [all_of e nest text bad plan] are the tokens of [text] and how the scanner ends; with
   [bad], reading on behind [text] fails, as it does when the read handler reports an error
   or the input cannot be decoded. *)
From Verif Require Import Base ReaderModel ReaderSpec Utf8Spec CharSpec Types CursorModel ScanModel ScannerModel ScannerSpec CutSpec CutReader Cut.
From Verif Require ParserModel DocModel LoaderModel LoaderSpec.

(* C72: a read handler may fail at any call.  The characters handed out are the first ones
   of the input.  Either the failure is reported, or the handler was not asked that often:
   then all is as if it never failed.  A failure is not taken for the end of the input. *)
Theorem C72_characters e input plan reqs : input_ok input -> Forall req_ok reqs ->
  (exists cs rest, given_by e input plan reqs = map utf8_enc cs /\ Forall yaml_char cs /\ after_mark e input = encode (used_encoding e input) cs ++ rest) /\
  (read_all e input plan reqs = read_all e input [] [] \/
   exists err, read_all e input plan reqs = ReadError err /\ re_problem err = InputError /\ In None plan).
Proof. exact (reader_cut e input plan reqs). Qed.
Print Assumptions C72_characters.
(* e-acute, "ab" in UTF-8; the third call fails *)
Example C72_characters_cut : given_by AnyEnc [0xC3; 0xA9; 0x61; 0x62] [Some 3; None] [] = [[0xC3; 0xA9]; [0x61]] /\
  read_all AnyEnc [0xC3; 0xA9; 0x61; 0x62] [Some 3; None] [] = ReadError (mkRerr InputError 3 None).
Proof. split; vm_compute; reflexivity. Qed.
(* it fails only where the end of the input has been reported already *)
Example C72_characters_whole : read_all AnyEnc [0x61; 0x62; 0x63] [Some 3; Some 1; None] [] = Text [[0x61]; [0x62]; [0x63]] Utf8Enc.
Proof. vm_compute. reflexivity. Qed.

(* ... the tokens handed out are the first ones of any text [t ++ Y] that begins with the
   characters [t] that could be read; the end is an error, and if it is not the one of the
   reader then the complete text gives the same tokens and the same error.  There is no
   STREAM-END.  The reader lets no NUL through (C02). *)
Theorem C72_tokens e nest t Y plan plan' : ~ In 0 t ->
  let part := all_of e nest t true plan in
  let full := all_of e nest (t ++ Y) false plan' in
  begins (fst part) (fst full) /\ Forall (fun x => t_tok x <> TStreamEnd) (fst part) /\
  exists er, snd part = Failed er /\ (se_problem er = SReader \/ part = full).
Proof. exact (tokens_cut e nest t Y plan plan'). Qed.
Print Assumptions C72_tokens.
(* "- a" LF "- [b": the bracket may still turn out to begin a key, and is held back *)
Definition half : list N := [0x2D; 0x20; 0x61; 10; 0x2D; 0x20; 0x5B; 0x62].
Definition half_tokens : list token := fst (all_of Utf8Enc 100 half true []).
Example C72_tokens_half : map t_tok half_tokens = [TStreamStart Utf8Enc; TBlockSeqStart; TBlockEntry; TScalar [0x61] Plain; TBlockEntry] /\
  exists er, snd (all_of Utf8Enc 100 half true []) = Failed er /\ se_problem er = SReader.
Proof. split; [vm_compute; reflexivity|]. eexists. vm_compute. split; reflexivity. Qed.
(* "a: - b" LF and eight more characters: the scanner finds the error before it meets the end *)
Definition wrong : list N := [0x61; 0x3A; 0x20; 0x2D; 0x20; 0x62; 10; 0x63; 0x63; 0x63; 0x63; 0x63; 0x63; 0x63; 0x63].
Example C72_tokens_wrong : exists er, snd (all_of Utf8Enc 100 wrong true []) = Failed er /\ se_problem er = SBlockEntry.
Proof. eexists. vm_compute. split; reflexivity. Qed.

(* ... so for the events: they are the first ones of the complete text, and the stream is
   not ended.  [n] is a number of calls of yaml_parser_parse. *)
Theorem C72_events e nest t Y plan plan' n : ~ In 0 t ->
  let (es, o) := ParserModel.parse_all n (ParserModel.init_parser (fst (all_of e nest t true plan))) in
  let (es', o') := ParserModel.parse_all n (ParserModel.init_parser (fst (all_of e nest (t ++ Y) false plan'))) in
  begins es es' /\ o <> ParserModel.Parsed /\
  ((es = es' /\ o = o') \/ exists er, o = ParserModel.Failed (Some er) /\ ParserModel.pe_problem er = ParserModel.TokenError).
Proof. intros H. exact (events_cut e nest t Y plan plan' H n). Qed.
Print Assumptions C72_events.
Example C72_events_half : map e_ev (fst (ParserModel.parse_all 20 (ParserModel.init_parser half_tokens))) =
  [EStreamStart Utf8Enc; EDocStart None [] true; ESeqStart None None true BlockColl; EScalar None None [0x61] true false Plain].
Proof. vm_compute. reflexivity. Qed.

(* ... and for documents: those loaded are the first ones of the complete text, and
   yaml_parser_load never says that there are no more. *)
Theorem C72_documents e nest t Y plan plan' fuel ds l : ~ In 0 t ->
  LoaderSpec.load_history fuel (fst (all_of e nest t true plan)) ds l ->
  (exists l', LoaderSpec.load_history fuel (fst (all_of e nest (t ++ Y) false plan')) ds l') /\
  forall l', LoaderModel.load fuel l <> LoaderModel.LNoDocument l'.
Proof. intros H. exact (documents_cut e nest t Y plan plan' H fuel ds l). Qed.
Print Assumptions C72_documents.
(* "--- a" LF "--- b" LF: the first document is loaded *)
Definition two_documents : list N := [0x2D; 0x2D; 0x2D; 0x20; 0x61; 10; 0x2D; 0x2D; 0x2D; 0x20; 0x62; 10].
Example C72_documents_one : exists l ld, LoaderSpec.load_history 10 (fst (all_of Utf8Enc 100 two_documents true [])) [ld] l /\
  DocModel.d_nodes ld = [DocModel.mkNode DocModel.default_scalar_tag (DocModel.NScalar [0x61] Plain)] /\ exists l', LoaderModel.load 10 l = LoaderModel.LFailed l'.
Proof.
  destruct (LoaderModel.load 10 (LoaderModel.init_loader (fst (all_of Utf8Enc 100 two_documents true [])))) as [d l| | | | |] eqn:E; [|vm_compute in E; discriminate E..].
  exists l, d. split; [exact (LoaderSpec.LH_call 10 _ [] _ d l (LoaderSpec.LH_start 10 _) E)|]. vm_compute in E. injection E as <- <-. split; [reflexivity|]. eexists. vm_compute. reflexivity.
Qed.
