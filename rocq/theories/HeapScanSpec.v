(* The blocks that belong to the scanner and the scanner of ScannerModel.v that it
   represents. *)
From Verif Require Import Base ReaderModel Types CursorModel ScanModel ParserModel DocModel HeapModel HeapSpec HeapLoaderModel
  HeapTokenModel HeapTokenSpec HeapLexModel ScannerModel HeapScanModel.

Definition y_blocks (y : ysc) : list nat :=
  ptr_blocks (y_raw y) ++ ptr_blocks (y_buffer y) ++ flat_map token_blocks (a_els (y_tokens y)) ++ ptr_blocks (a_at (y_tokens y)) ++
  ptr_blocks (a_at (y_indents y)) ++ ptr_blocks (a_at (y_keys y)).
Definition y_at (h : heap) (y : ysc) : sc :=
  let s := y_sc y in
  mkSc (s_cur s) (s_enc s) (s_started s) (s_ended s) (s_error s) (s_flow s) (map (token_at h) (a_els (y_tokens y))) (s_parsed s) (s_avail s)
    (rev (a_els (y_indents y))) (s_indent s) (s_allowed s) (rev (a_els (y_keys y))) (s_nest s).
