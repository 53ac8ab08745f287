(* Specification of loading: which document a serialisation tree denotes.
   Only the last definition, the history of calls, refers to the loader. *)
From Verif Require Import Base ReaderModel Types TreeSpec DocModel DocSpec ParserModel ParserSpec LoaderModel.

(* No tag, or "!", stands for the default tag of the kind. *)
Definition tag_or_default (tag : option (list N)) (default : list N) : list N :=
  match tag with
  | None => default
  | Some t => if list_eq_dec N.eq_dec t [33] then default else t
  end.

(* The anchors known at some point of a document, with the nodes they name. *)
Definition anchors := list (list N * nat).
Definition declare (env : anchors) (a : option (list N)) (i : nat) : anchors :=
  match a with None => env | Some a => env ++ [(a, i)] end.
Definition fresh (env : anchors) (a : option (list N)) : Prop :=
  match a with None => True | Some a => ~ In a (map fst env) end.

(* [denotes d env n t i env' n']: in document [d], whose first [n] nodes come
   before the tree [t], and where the anchors [env] are known, [t] is node [i];
   afterwards the anchors are [env'] and [n'] nodes have been used.
   Nodes are numbered in the order in which they begin; an alias is the node that
   its anchor, declared earlier, names. *)
Inductive denotes (d : document) : anchors -> nat -> tree -> nat -> anchors -> nat -> Prop :=
| D_alias env n a i : In (a, i) env -> denotes d env n (Alias a) i env n
| D_scalar env n a tag v pi qi s : fresh env a ->
    node_at d (S n) = Some (mkNode (tag_or_default tag default_scalar_tag) (NScalar v s)) ->
    denotes d env n (Scalar a tag v pi qi s) (S n) (declare env a (S n)) (S n)
| D_sequence env n a tag i s items ids env' n' : fresh env a ->
    node_at d (S n) = Some (mkNode (tag_or_default tag default_sequence_tag) (NSequence ids s)) ->
    denotes_items d (declare env a (S n)) (S n) items ids env' n' ->
    denotes d env n (Sequence a tag i s items) (S n) env' n'
| D_mapping env n a tag i s pairs ids env' n' : fresh env a ->
    node_at d (S n) = Some (mkNode (tag_or_default tag default_mapping_tag) (NMapping ids s)) ->
    denotes_pairs d (declare env a (S n)) (S n) pairs ids env' n' ->
    denotes d env n (Mapping a tag i s pairs) (S n) env' n'
with denotes_items (d : document) : anchors -> nat -> list tree -> list nat -> anchors -> nat -> Prop :=
| DI_nil env n : denotes_items d env n [] [] env n
| DI_cons env n t i env1 n1 ts is env2 n2 :
    denotes d env n t i env1 n1 -> denotes_items d env1 n1 ts is env2 n2 ->
    denotes_items d env n (t :: ts) (i :: is) env2 n2
with denotes_pairs (d : document) : anchors -> nat -> list (tree * tree) -> list (nat * nat) -> anchors -> nat -> Prop :=
| DP_nil env n : denotes_pairs d env n [] [] env n
| DP_cons env n k v ki vi env1 n1 env2 n2 ps is env3 n3 :
    denotes d env n k ki env1 n1 -> denotes d env1 n1 v vi env2 n2 -> denotes_pairs d env2 n2 ps is env3 n3 ->
    denotes_pairs d env n ((k, v) :: ps) ((ki, vi) :: is) env3 n3.

(* A document denoted by a document tree: nothing but the nodes of the tree, the
   root first. *)
Definition document_of (t : doc_tree) (d : document) : Prop :=
  d_version d = dt_version t /\ d_tags d = dt_tags t /\
  d_start_implicit d = dt_start_implicit t /\ d_end_implicit d = dt_end_implicit t /\
  exists env, denotes d [] 0 (dt_root t) 1 env (length (d_nodes d)).

(* The anchors declared by some events, and the events that a document with those
   declarations cannot go on with: an alias to something not declared before, a
   second declaration of an anchor. *)
Definition declared (es : list ev) : list (list N) :=
  flat_map (fun e => match anchor_of e with Some a => [a] | None => [] end) es.
Inductive composer_error (before : list ev) : ev -> pproblem -> Prop :=
| CE_alias a : ~ In a (declared before) -> composer_error before (EAlias a) UndefinedAlias
| CE_anchor e a : anchor_of e = Some a -> In a (declared before) -> composer_error before e DuplicateAnchor.
Definition well_scoped (es : list ev) : Prop :=
  forall before e after pr, es = before ++ e :: after -> ~ composer_error before e pr.

(* A sequence of calls of yaml_parser_parse starting at any parser. *)
Inductive yields (p : parser) : list event -> parser -> Prop :=
| Y_none : yields p [] p
| Y_call es q e q' : yields p es q -> parse q = PEvent e q' -> yields p (es ++ [e]) q'.

(* A well-formed document: there is a root, node 1; every id mentioned is the id of
   a node (so no pair lacks its value); every node but the root is a child of a
   node that comes before it. *)
Definition doc_ok (d : document) : Prop :=
  (exists root, node_at d 1 = Some root) /\ closed d /\
  forall i n, node_at d i = Some n -> i <> 1%nat ->
    exists parent m, (parent < i)%nat /\ node_at d parent = Some m /\ In i (children m).

(* A history of calls of yaml_parser_load that returned documents.  [fuel] is the
   bound on the loop of yaml_parser_load_nodes in the model. *)
Inductive load_history (fuel : nat) (input : list token) : list document -> loader -> Prop :=
| LH_start : load_history fuel input [] (init_loader input)
| LH_call ds l d l' : load_history fuel input ds l -> load fuel l = LDocument d l' -> load_history fuel input (ds ++ [d]) l'.

(* The events of the next document that [load] would read on [l] (after
   STREAM-START, if it is the first call), and the parser after them. *)
Definition reading (l : loader) (es : list event) (q : parser) : Prop :=
  (ld_started l = true /\ yields (ld_parser l) es q) \/
  (ld_started l = false /\ exists e enc p, parse (ld_parser l) = PEvent e p /\ e_ev e = EStreamStart enc /\ yields p es q).
Definition inside_document (e : event) : Prop := forall i, e_ev e <> EDocEnd i.
