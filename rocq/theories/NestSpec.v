(* How deep collections nest in a list of tokens; independent of how the scanner works.
   [flow_depth] and [block_depth] are those of ScannerSpec.v. *)
From Verif Require Import Base Types ScannerSpec.

(* the tokens that open a collection, the ones the parser compares with the limit
   (parser.c:679-717) *)
Definition opens (t : token) : bool :=
  match t_tok t with
  | TBlockSeqStart | TBlockMapStart | TFlowSeqStart | TFlowMapStart => true
  | _ => false
  end.
Definition opens_block (t : token) : bool :=
  match t_tok t with TBlockSeqStart | TBlockMapStart => true | _ => false end.
(* the collections open after a list of tokens *)
Definition nesting (l : list token) : Z := (block_depth l + Z.of_N (flow_depth l))%Z.
(* somewhere in a list of tokens at least [n] collections are open *)
Definition reaches (n : Z) (l : list token) : Prop := exists p r, l = p ++ r /\ (n <= nesting p)%Z.
(* no collection was refused *)
Definition accepted (l : list token) : Prop := forall t, In t l -> opens t = true -> t_deep t = false.
(* the collections open after a list of events *)
Definition event_after (d : Z) (e : ev) : Z :=
  match e with
  | ESeqStart _ _ _ _ | EMapStart _ _ _ _ => (d + 1)%Z
  | ESeqEnd | EMapEnd => (d - 1)%Z
  | _ => d
  end.
Definition event_depth (l : list ev) : Z := fold_left event_after l 0%Z.
