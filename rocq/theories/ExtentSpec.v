(* Specification side for C76: which tokens an event is made from, and where it
   starts and ends accordingly. *)
From Verif Require Import Base Types.

Definition toks (P : tok -> Prop) (l : list token) : Prop := Forall (fun x => P (t_tok x)) l.
(* tokens that may come in front of a node *)
Definition leads (t : tok) : Prop :=
  match t with
  | TBlockSeqStart | TBlockMapStart | TFlowSeqStart | TFlowMapStart
  | TBlockEntry | TFlowEntry | TKey | TValue => True
  | _ => False
  end.
(* the indicators after which a node is missing *)
Definition marker (t : tok) : Prop := match t with TBlockEntry | TFlowEntry | TKey | TValue => True | _ => False end.
(* what comes after a missing node in a flow collection *)
Definition flow_stop (t : tok) : Prop := match t with TValue | TFlowEntry | TFlowSeqEnd | TFlowMapEnd => True | _ => False end.
Definition property (t : tok) : Prop := match t with TAnchor _ | TTag _ _ => True | _ => False end.
Definition directive (t : tok) : Prop := match t with TVersion _ _ | TTagDirective _ _ => True | _ => False end.
Definition opens (t : tok) (e : ev) : Prop :=
  match t, e with
  | TBlockSeqStart, ESeqStart _ _ _ BlockColl | TBlockEntry, ESeqStart _ _ _ BlockColl
  | TFlowSeqStart, ESeqStart _ _ _ FlowColl
  | TBlockMapStart, EMapStart _ _ _ BlockColl | TFlowMapStart, EMapStart _ _ _ FlowColl => True
  | _, _ => False
  end.
Definition closes (t : tok) (e : ev) : Prop :=
  match t, e with
  | TBlockEnd, ESeqEnd | TFlowSeqEnd, ESeqEnd | TBlockEnd, EMapEnd | TFlowMapEnd, EMapEnd => True
  | _, _ => False
  end.
(* the anchor [a] and the tag [t] of a node come from its properties [ps] *)
Definition carried (ps : list token) (a t : option (list N)) : Prop :=
  flat_map (fun x => match t_tok x with TAnchor n => [n] | _ => [] end) ps = match a with Some n => [n] | None => [] end /\
  existsb (fun x => match t_tok x with TTag _ _ => true | _ => false end) ps = match t with Some _ => true | None => false end.
Definition carried_by (ps : list token) (e : ev) : Prop :=
  match e with ESeqStart a t _ _ | EMapStart a t _ _ => carried ps a t | _ => True end.
(* the start of the first of the tokens [l] and [x] *)
Definition from (l : list token) (x : token) : mark := t_start (hd x l).

(* [spans e used next]: [e] is made from the tokens [used], with [next] behind
   them, and has its marks from them. *)
Inductive spans : event -> list token -> list token -> Prop :=
| sp_stream_start x enc next : t_tok x = TStreamStart enc ->
    spans (mkEvent (EStreamStart enc) (t_start x) (t_start x)) [x] next
| sp_stream_end dots x next : toks (eq TDocEnd) dots -> t_tok x = TStreamEnd ->
    spans (mkEvent EStreamEnd (t_start x) (t_end x)) (dots ++ [x]) next
(* a document starts with its first directive, and its start ends with "---" *)
| sp_document dots dirs x v ts next : toks (eq TDocEnd) dots -> toks directive dirs -> t_tok x = TDocStart ->
    spans (mkEvent (EDocStart v ts false) (from dirs x) (t_end x)) (dots ++ dirs ++ [x]) next
| sp_bare_document x next :
    spans (mkEvent (EDocStart None [] true) (t_start x) (t_start x)) [] (x :: next)
| sp_document_end x next : t_tok x = TDocEnd ->
    spans (mkEvent (EDocEnd false) (t_start x) (t_end x)) [x] next
| sp_bare_document_end x next : t_tok x <> TDocEnd ->
    spans (mkEvent (EDocEnd true) (t_start x) (t_start x)) [] (x :: next)
| sp_alias ls x n next : toks leads ls -> t_tok x = TAlias n ->
    spans (mkEvent (EAlias n) (t_start x) (t_end x)) (ls ++ [x]) next
(* a scalar starts with its first property *)
| sp_scalar ls ps x value style a t i j next : toks leads ls -> toks property ps -> carried ps a t -> t_tok x = TScalar value style ->
    spans (mkEvent (EScalar a t value i j style) (from ps x) (t_end x)) (ls ++ ps ++ [x]) next
(* properties with nothing behind them *)
| sp_properties ls ps x a t i next : toks leads ls -> toks property (ps ++ [x]) -> carried (ps ++ [x]) a t ->
    spans (mkEvent (EScalar a t [] i false Plain) (from ps x) (t_end x)) (ls ++ ps ++ [x]) next
(* a missing node stands where the indicator in front of it ends *)
| sp_missing_behind ls x next : toks leads ls -> marker (t_tok x) ->
    spans (mkEvent (EScalar None None [] true false Plain) (t_end x) (t_end x)) (ls ++ [x]) next
(* ... or, without an indicator and in flow collections, where the next token starts *)
| sp_missing_before ls x next : toks leads ls -> ls = [] \/ flow_stop (t_tok x) ->
    spans (mkEvent (EScalar None None [] true false Plain) (t_start x) (t_start x)) ls (x :: next)
(* a collection starts with its first property; the token that opens it is used by the next event *)
| sp_open ls ps x e next : toks leads ls -> toks property ps -> carried_by ps e -> opens (t_tok x) e ->
    spans (mkEvent e (from ps x) (t_end x)) (ls ++ ps) (x :: next)
(* the mapping of a single pair in a flow sequence *)
| sp_pair ls x next : toks leads ls -> t_tok x = TKey ->
    spans (mkEvent (EMapStart None None true FlowColl) (t_start x) (t_end x)) (ls ++ [x]) next
| sp_close ls x e next : toks leads ls -> closes (t_tok x) e ->
    spans (mkEvent e (t_start x) (t_end x)) (ls ++ [x]) next
(* the end of a sequence without its own indentation, and of a single pair *)
| sp_bare_close x e next : e = ESeqEnd \/ e = EMapEnd ->
    spans (mkEvent e (t_start x) (t_start x)) [] (x :: next).

(* The events are made, one after the other, from consecutive pieces of the tokens. *)
Inductive made : list event -> list token -> Prop :=
| made_nil l : made [] l
| made_cons e es used next : spans e used next -> made es next -> made (e :: es) (used ++ next).
