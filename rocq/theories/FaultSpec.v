(* Specification side for the errors of the composer (C78). *)
From Verif Require Import Base Types TreeSpec ParserModel ParserSpec.

(* [fault es e err]: after the events [es] of a document the event [e] is wrong, and [err] says so:
   an alias to an anchor that no event before carries, or an anchor that an event before carries. *)
Inductive fault (es : list event) (e : event) : perr -> Prop :=
| Fa_alias a : e_ev e = EAlias a -> (forall x, In x es -> anchor_of (e_ev x) <> Some a) ->
    fault es e (mkPerr UndefinedAlias None (Some (e_start e)))
| Fa_anchor a before x after : anchor_of (e_ev e) = Some a ->
    es = before ++ x :: after -> anchor_of (e_ev x) = Some a -> (forall y, In y before -> anchor_of (e_ev y) <> Some a) ->
    fault es e (mkPerr DuplicateAnchor (Some (e_start x)) (Some (e_start e))).
