(* Where a simple key is required: a small vocabulary over the text and the tokens. *)
From Verif Require Import Base Types ScannerSpec.

(* The columns of the block collections that are open after some tokens, innermost
   first: where the first entry or key of each stands. *)
Definition open_after (st : list N) (t : token) : list N :=
  match t_tok t with
  | TBlockSeqStart | TBlockMapStart => m_column (t_start t) :: st
  | TBlockEnd => tl st
  | _ => st
  end.
Definition open_columns (l : list token) : list N := fold_left open_after l [].

(* nothing but spaces before the position on its line *)
Definition first_on_line (text : list N) (m : mark) : Prop :=
  forall i, m_index m <= i + m_column m -> i < m_index m -> nth_error text (N.to_nat i) = Some 0x20.

(* a scalar written with '|' or '>' *)
Definition is_block_scalar (t : token) : bool :=
  match t_tok t with TScalar _ Literal | TScalar _ Folded => true | _ => false end.

(* A node that stands where a block collection has its entries or keys: it is the
   first thing on its line, at the column of the innermost open block collection, in
   no flow collection.  [a] are the tokens before [x]. *)
Definition at_key_place (text : list N) (a : list token) (x : token) : Prop :=
  is_node_token x = true /\ is_block_scalar x = false /\ flow_depth a = 0 /\
  hd_error (open_columns a) = Some (m_column (t_start x)) /\ first_on_line text (t_start x).
(* right after the KEY token of an implicit key *)
Definition after_key (a : list token) (x : token) : Prop :=
  exists a' k, a = a' ++ [k] /\ is_implicit_key k /\ t_start k = t_start x.
