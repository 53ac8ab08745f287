(* The blocks of a token, and the token of ParserModel.v that it represents. *)
From Verif Require Import Base ReaderModel Types ParserModel DocModel HeapModel HeapSpec HeapLoaderModel HeapTokenModel.

Definition tok_blocks (t : htok) : list nat :=
  match t with
  | HTTagDirective a b | HTTag a b => ptr_blocks a ++ ptr_blocks b
  | HTAlias a | HTAnchor a | HTScalar a _ => ptr_blocks a
  | _ => []
  end.
Definition token_blocks (t : htoken) : list nat := tok_blocks (ht_tok t).

Definition tok_at (h : heap) (t : htok) : tok :=
  match t with
  | HTStreamStart e => TStreamStart e | HTStreamEnd => TStreamEnd
  | HTVersion a b => TVersion a b
  | HTTagDirective a b => TTagDirective (str_at h a) (str_at h b)
  | HTDocStart => TDocStart | HTDocEnd => TDocEnd
  | HTBlockSeqStart => TBlockSeqStart | HTBlockMapStart => TBlockMapStart | HTBlockEnd => TBlockEnd
  | HTFlowSeqStart => TFlowSeqStart | HTFlowSeqEnd => TFlowSeqEnd
  | HTFlowMapStart => TFlowMapStart | HTFlowMapEnd => TFlowMapEnd
  | HTBlockEntry => TBlockEntry | HTFlowEntry => TFlowEntry | HTKey => TKey | HTValue => TValue
  | HTAlias a => TAlias (str_at h a) | HTAnchor a => TAnchor (str_at h a)
  | HTTag a b => TTag (str_at h a) (str_at h b)
  | HTScalar a st => TScalar (str_at h a) st
  end.
Definition token_at (h : heap) (t : htoken) : token := mkToken (tok_at h (ht_tok t)) (ht_start t) (ht_end t) (ht_deep t).
