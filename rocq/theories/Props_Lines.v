(* Property C49: line endings.  Statements only.  [with_lf], [same_but_breaks] and
   [placed] are in LineSpec.v; [scan_all n] is n calls of yaml_parser_scan. *)
From Verif Require Import Base ReaderModel Utf8Spec CharSpec Types CursorModel ScanModel ScannerModel ScannerSpec LineSpec LineCur LineScanner LineLoadSpec LineLoad.
From Verif Require ParserModel DocModel LoaderModel LoaderSpec.

(* C49: two texts that differ only in the way their line breaks are written (LF, CR,
   CR LF or NEL) give the same tokens, with the same values, at the same lines and
   columns, and end in the same way: both at the end of the stream or both with the
   same error at the same line and column.  The reader lets no NUL through (C02). *)
Theorem C49_line_endings e nest T T' plan plan' n : ~ In 0 T -> ~ In 0 T' -> same_but_breaks T T' ->
  let r := scan_all n (init_scanner e nest T false plan) in
  let r' := scan_all n (init_scanner e nest T' false plan') in
  map placed (fst r) = map placed (fst r') /\
  match snd r, snd r' with
  | Ended, Ended => True
  | Failed er, Failed er' => placed_error er = placed_error er'
  | Unfinished, Unfinished => True
  | _, _ => False
  end.
Proof. exact (same_scan e nest T T' plan plan' n). Qed.
Print Assumptions C49_line_endings.
(* "k: |" break "  a" break break "  b" break "q: ""x" break "y""" break, with two ways
   of writing a break *)
Definition lines (b : list N) : list N :=
  [107;58;32;124] ++ b ++ [32;32;97] ++ b ++ b ++ [32;32;98] ++ b ++ [113;58;32;34;120] ++ b ++ [32;121;34] ++ b.
Definition run (T : list N) : list token * outcome := scan_all 20 (init_scanner Utf8Enc 1000%Z T false []).
Example C49_nonvacuous : same_but_breaks (lines [0xD; 0xA]) (lines [0x85]) /\
  snd (run (lines [0xD; 0xA])) = Ended /\ t_tok (nth 5 (fst (run (lines [0xD; 0xA]))) (mkToken TKey mark0 mark0 false)) = TScalar [97;10;10;98;10] Literal.
Proof. split; [vm_compute; reflexivity|]. split; vm_compute; reflexivity. Qed.
(* the numbers of characters do differ *)
Example C49_marks : map (fun t => m_index (t_start t)) (fst (run (lines [0xD; 0xA]))) <> map (fun t => m_index (t_start t)) (fst (run (lines [0x85]))).
Proof. vm_compute. discriminate. Qed.
(* errors are among the outcomes: "a: 1" CR LF "b" CR *)
Example C49_error : match snd (run [97;58;32;49;0xD;0xA;98;0xD]) with Failed er => placed_error er | _ => (SReader, None, (0, 0)) end = (SNoColon, Some (1, 0), (2, 0)).
Proof. vm_compute. reflexivity. Qed.

(* The value of a scalar is made of characters of the text, of spaces and of line feeds:
   no break in it is written as CR or NEL.  A double-quoted scalar may have any character
   by an escape sequence; there the claim is for texts without a backslash. *)
Theorem C49_values e nest T plan n t v st : ~ In 0 T ->
  In t (fst (scan_all n (init_scanner e nest T false plan))) -> t_tok t = TScalar v st -> st <> DoubleQuoted \/ ~ In 0x5C T ->
  exists w, v = utf8 w /\ forall x, In x w -> x <> 0xD /\ x <> 0x85 /\ (In x T \/ x = 0x20 \/ x = 0xA).
Proof. exact (scalar_values e nest T plan n t v st). Qed.
Print Assumptions C49_values.
(* LS is kept: "- |" LF "  a" LS "  b" *)
Example C49_ls : existsb (fun t => match t_tok t with TScalar v Literal => str_eqb v (utf8 [97; 0x2028; 98]) | _ => false end)
  (fst (run [45;32;124;10;32;32;97;0x2028;32;32;98])) = true.
Proof. vm_compute. reflexivity. Qed.
(* the escape sequence \r puts a CR into a value: the exception is there *)
Example C49_escape : existsb (fun t => match t_tok t with TScalar v DoubleQuoted => str_eqb v [0xD] | _ => false end)
  (fst (run [34;92;114;34])) = true.
Proof. vm_compute. reflexivity. Qed.

(* So the events are the same, at the same lines and columns, and so are the documents
   loaded and the way the stream ends. *)
Theorem C49_events e nest T T' plan plan' n k : ~ In 0 T -> ~ In 0 T' -> same_but_breaks T T' ->
  let r := ParserModel.parse_all k (ParserModel.init_parser (fst (scan_all n (init_scanner e nest T false plan)))) in
  let r' := ParserModel.parse_all k (ParserModel.init_parser (fst (scan_all n (init_scanner e nest T' false plan')))) in
  map placed_event (fst r) = map placed_event (fst r') /\ same_result (snd r) (snd r').
Proof. intros H H' S. exact (same_parse k _ _ (proj1 (same_scan e nest T T' plan plan' n H H' S))). Qed.
Print Assumptions C49_events.
Theorem C49_documents e nest T T' plan plan' n fuel ds ending : ~ In 0 T -> ~ In 0 T' -> same_but_breaks T T' ->
  loads fuel (fst (scan_all n (init_scanner e nest T false plan))) ds ending ->
  loads fuel (fst (scan_all n (init_scanner e nest T' false plan'))) ds ending.
Proof. intros H H' S. exact (same_load fuel _ _ ds ending (proj1 (same_scan e nest T T' plan plan' n H H' S))). Qed.
Print Assumptions C49_documents.
Definition sample_doc : DocModel.document := Eval vm_compute in
  match LoaderModel.load 100 (LoaderModel.init_loader (fst (run (lines [0xD; 0xA])))) with LoaderModel.LDocument d _ => d | _ => DocModel.mkDoc [] None [] true true end.
Example C49_loads : length (DocModel.d_nodes sample_doc) = 5%nat /\ loads 100 (fst (run (lines [0x85]))) [sample_doc] None.
Proof.
  split; [reflexivity|]. unfold loads, run. destruct (LoaderModel.load 100 (LoaderModel.init_loader (fst (scan_all 20 (init_scanner Utf8Enc 1000%Z (lines [0x85]) false []))))) as [d l| | | | |] eqn:E; try (vm_compute in E; discriminate E).
  exists l. assert (d = sample_doc) as -> by (vm_compute in E; injection E as <- _; reflexivity). split.
  - exact (LoaderSpec.LH_call _ _ [] _ _ _ (LoaderSpec.LH_start _ _) E).
  - vm_compute in E. injection E as <-. vm_compute. exact I.
Qed.
