(* Specification vocabulary for the parser properties that are not about the
   grammar as a whole. *)
From Verif Require Import Base ReaderModel Types TreeSpec GrammarSpec ParserModel.

(* A history of successful calls of yaml_parser_parse on a fresh parser: the
   events returned so far, in order, and the parser afterwards. *)
Inductive history (input : list token) : list event -> parser -> Prop :=
| H_start : history input [] (init_parser input)
| H_call es p e p' : history input es p -> parse p = PEvent e p' -> history input (es ++ [e]) p'.

(* [used] are the tokens taken from the input between two moments *)
Definition consumed (before after : parser) (used : list tok) : Prop :=
  map t_tok (p_in before) = used ++ map t_tok (p_in after).

(* The %TAG directives of the document that the end of a token sequence belongs
   to: those between the end of the previous document and its DOCUMENT-START. *)
Fixpoint active_from (current pending : list tagdir) (ts : list tok) : list tagdir :=
  match ts with
  | [] => current
  | TTagDirective h p :: r => active_from current (pending ++ [(h, p)]) r
  | TDocStart :: r => active_from pending [] r
  | TDocEnd :: r => active_from [] [] r
  | _ :: r => active_from current pending r
  end.
Definition active (ts : list tok) : list tagdir := active_from [] [] ts.

(* the events after which a document may start *)
Definition boundary (e : ev) : bool := match e with EStreamStart _ | EDocEnd _ => true | _ => false end.

Definition tag_of (e : ev) : option (list N) :=
  match e with EScalar _ t _ _ _ _ | ESeqStart _ t _ _ | EMapStart _ t _ _ => t | _ => None end.
Definition anchor_of (e : ev) : option (list N) :=
  match e with EScalar a _ _ _ _ _ | ESeqStart a _ _ _ | EMapStart a _ _ _ => a | _ => None end.

(* No item of a flow sequence is a one-pair mapping with a missing key. *)
Definition missing_key_pair (t : tree) : bool :=
  match t with
  | Mapping None None true FlowColl [(Scalar None None [] true false Plain, _)] => true
  | _ => false
  end.
Inductive keyed : tree -> Prop :=
| K_alias a : keyed (Alias a)
| K_scalar a t v i j s : keyed (Scalar a t v i j s)
| K_seq a t i s xs : Forall keyed xs -> (s = FlowColl -> Forall (fun x => missing_key_pair x = false) xs) ->
    keyed (Sequence a t i s xs)
| K_map a t i s ps : Forall (fun kv => keyed (fst kv) /\ keyed (snd kv)) ps -> keyed (Mapping a t i s ps).
Definition keyed_stream (s : stream_tree) : Prop := Forall (fun d => keyed (dt_root d)) (st_docs s).
