(* Specification side for the errors of the parser (C79): what was wrong, and which tokens the
   marks come from. *)
From Verif Require Import Base Types ParserModel ExtentSpec.

Definition opener (t : tok) : bool := match t with TBlockSeqStart | TBlockMapStart | TFlowSeqStart | TFlowMapStart => true | _ => false end.
Definition closer (t : tok) : bool := match t with TBlockEnd | TFlowSeqEnd | TFlowMapEnd => true | _ => false end.
(* the starts of the collections that the tokens [l] open and do not close, the innermost first;
   [acc] are open already *)
Fixpoint open_starts (acc : list mark) (l : list token) : list mark :=
  match l with
  | [] => acc
  | x :: r => open_starts (if opener (t_tok x) then t_start x :: acc else if closer (t_tok x) then tl acc else acc) r
  end.
(* tokens that a node begins with *)
Definition begins_node (t : tok) : Prop :=
  match t with TAlias _ | TAnchor _ | TTag _ _ | TScalar _ _ | TFlowSeqStart | TFlowMapStart => True | _ => False end.
(* the error [pr] means that none of these tokens came *)
Definition expected (pr : pproblem) (t : tok) : Prop :=
  match pr, t with
  | NoBlockEntry, TBlockEntry | NoBlockEntry, TBlockEnd | NoKey, TKey | NoKey, TBlockEnd
  | NoFlowSeqEntry, TFlowEntry | NoFlowSeqEntry, TFlowSeqEnd | NoFlowMapEntry, TFlowEntry | NoFlowMapEntry, TFlowMapEnd => True
  | _, _ => False
  end.

(* [blame before used next err]: a call of yaml_parser_parse that took the tokens [used], after
   [before], failed with [err] when [next] was to come. *)
Inductive blame (before used : list token) : list token -> perr -> Prop :=
| Bl_token : blame before used [] (mkPerr TokenError None None)
| Bl_stream x r : (forall enc, t_tok x <> TStreamStart enc) -> blame before used (x :: r) (mkPerr NoStreamStart None (Some (t_start x)))
| Bl_document x r : t_tok x <> TDocStart -> blame before used (x :: r) (mkPerr NoDocStart None (Some (t_start x)))
| Bl_version pr x r M m : t_tok x = TVersion M m -> pr = DuplicateYaml \/ pr = Incompatible -> blame before used (x :: r) (mkPerr pr None (Some (t_start x)))
| Bl_tag x r h p : t_tok x = TTagDirective h p -> blame before used (x :: r) (mkPerr DuplicateTag None (Some (t_start x)))
(* a tag whose handle is not declared: the start of the node, and the tag *)
| Bl_handle ls ps x h s next : used = ls ++ ps -> toks leads ls -> toks property ps -> In x ps -> t_tok x = TTag h s ->
    blame before used next (mkPerr UndefinedTagHandle (Some (from ps x)) (Some (t_start x)))
| Bl_nesting ls ps x r : used = ls ++ ps -> toks leads ls -> toks property ps -> opener (t_tok x) = true ->
    blame before used (x :: r) (mkPerr MaxNesting (Some (from ps x)) (Some (t_start x)))
| Bl_content b x r : toks leads used -> ~ begins_node (t_tok x) ->
    blame before used (x :: r) (mkPerr (NoNodeContent b) (Some (t_start x)) (Some (t_start x)))
(* in a collection: its start, and the token that does not belong there *)
| Bl_entry pr x r m ms : In pr [NoBlockEntry; NoKey; NoFlowSeqEntry; NoFlowMapEntry] -> ~ expected pr (t_tok x) ->
    open_starts [] (before ++ used) = m :: ms -> blame before used (x :: r) (mkPerr pr (Some m) (Some (t_start x))).

(* [fails before l es err]: from the tokens [l], after [before], the events [es] are made, each
   from its piece of them (ExtentSpec.v), and then comes [err]. *)
Inductive fails (before : list token) : list token -> list event -> perr -> Prop :=
| F_now used next err : blame before used next err -> fails before (used ++ next) [] err
| F_later e es used next err : spans e used next -> fails (before ++ used) next es err -> fails before (used ++ next) (e :: es) err.
