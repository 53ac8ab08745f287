(* The blocks that belong to a parser, and the parser of ParserModel.v that it
   represents. *)
From Verif Require Import Base ReaderModel Types CursorModel ParserModel DocModel HeapModel HeapSpec HeapLoaderModel HeapTokenModel HeapTokenSpec
  ScannerModel ScannerSpec HeapScanModel HeapScanSpec HeapParserModel.

Definition hp_blocks (p : hp) : list nat :=
  y_blocks (hp_scan p) ++ ptr_blocks (a_at (hp_states p)) ++ ptr_blocks (a_at (hp_marks p)) ++ tags_blocks (hp_tags p).

(* The tokens that a scanner still delivers *)
Definition upcoming (s : sc) : list token :=
  fst (scan_all (4 * (N.to_nat (m_index (smark s)) + length (c_text (s_cur s))) + 4) s).
Definition error_at (e : option herror) : option perr :=
  match e with None => None | Some (HProblem e) => Some e | Some _ => Some (mkPerr TokenError None None) end.
Definition hp_at (h : heap) (p : hp) : parser :=
  mkParser (upcoming (y_at h (hp_scan p))) (y_ended (hp_scan p)) (error_at (hp_error p)) (hp_state p)
    (rev (a_els (hp_states p))) (rev (a_els (hp_marks p))) (map (pair_at h) (a_els (hp_tags p))).
