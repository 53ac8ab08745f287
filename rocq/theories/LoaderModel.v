(* Model of loader.c: composing documents from events.

   Simplifications: allocation succeeds and no stack reaches the limit INT_MAX-1;
   marks of nodes are kept only where the code reads them (the start mark of an
   anchored node); MarkLoaderModel.v has the others. *)
From Verif Require Import Base ReaderModel Types ParserModel DocModel.

(* parser->aliases, an array of (anchor, index, mark); the context stack (top
   first); document->nodes.  A pair whose value is still missing has value 0. *)
Record lstate := mkLstate {
  l_nodes : list node;
  l_aliases : list (list N * nat * mark);
  l_ctx : list nat }.

(* One composer function: return 1, return 0 with the error set, a failed
   assertion, or an access outside an array. *)
Inductive lstep :=
| LNext (s : lstate)
| LError (e : perr)
| LAssertion
| LUndefined.

(* loader.c:280-287, 356-362: the search through parser->aliases *)
Definition find_alias (al : list (list N * nat * mark)) (name : list N) : option (nat * mark) :=
  match find (fun x => str_eqb (fst (fst x)) name) al with
  | Some (_, i, m) => Some (i, m)
  | None => None
  end.

(* loader.c:263-292 yaml_parser_register_anchor *)
Definition register_anchor (s : lstate) (index : nat) (m : mark) (anchor : option (list N)) : lstep :=
  match anchor with
  | None => LNext s
  | Some a =>
      match find_alias (l_aliases s) a with
      | Some (_, first) => LError (mkPerr DuplicateAnchor (Some first) (Some m))
      | None => LNext (mkLstate (l_nodes s) (l_aliases s ++ [(a, index, m)]) (l_ctx s))
      end
  end.

(* nodes.start[index-1] *)
Definition node_ref (ns : list node) (index : nat) : option node :=
  match index with O => None | S k => nth_error ns k end.
Definition node_set (ns : list node) (index : nat) (n : node) : list node :=
  match index with O => ns | S k => set_nth k n ns end.

(* loader.c:316-334: the last pair is completed if it has a key and no value,
   otherwise a new pair is pushed *)
Definition add_to_pairs (pairs : list (nat * nat)) (index : nat) : list (nat * nat) :=
  match rev pairs with
  | (S k, O) :: r => rev r ++ [(S k, index)]
  | _ => pairs ++ [(index, O)]
  end.

(* loader.c:298-344 yaml_parser_load_node_add *)
Definition load_node_add (s : lstate) (index : nat) : lstep :=
  match l_ctx s with
  | [] => LNext s
  | parent :: _ =>
      match node_ref (l_nodes s) parent with
      | None => LUndefined
      | Some (mkNode tag (NSequence items style)) =>
          LNext (mkLstate (node_set (l_nodes s) parent (mkNode tag (NSequence (items ++ [index]) style))) (l_aliases s) (l_ctx s))
      | Some (mkNode tag (NMapping pairs style)) =>
          LNext (mkLstate (node_set (l_nodes s) parent (mkNode tag (NMapping (add_to_pairs pairs index) style))) (l_aliases s) (l_ctx s))
      | Some (mkNode _ (NScalar _ _)) => LAssertion
      end
  end.

Definition lbind (r : lstep) (k : lstate -> lstep) : lstep := match r with LNext s => k s | x => x end.

(* loader.c:350-368 yaml_parser_load_alias *)
Definition load_alias (s : lstate) (name : list N) (m : mark) : lstep :=
  match find_alias (l_aliases s) name with
  | Some (index, _) => load_node_add s index
  | None => LError (mkPerr UndefinedAlias None (Some m))
  end.

(* loader.c:384-388, 430-434, 498-502: no tag or "!" *)
Definition choose_tag (tag : option (list N)) (default : list N) : list N :=
  match tag with
  | None => default
  | Some t => if str_eqb t [33] then default else t
  end.
Definition push_new (s : lstate) (n : node) : lstate := mkLstate (l_nodes s ++ [n]) (l_aliases s) (l_ctx s).
(* PUSH onto document->nodes, register the anchor, add to the parent *)
Definition load_new (s : lstate) (n : node) (anchor : option (list N)) (m : mark) : lstep :=
  let s := push_new s n in
  let index := length (l_nodes s) in
  lbind (register_anchor s index m anchor) (fun s => load_node_add s index).
Definition push_ctx (s : lstate) (index : nat) : lstate := mkLstate (l_nodes s) (l_aliases s) (index :: l_ctx s).

(* loader.c:374-408 yaml_parser_load_scalar *)
Definition load_scalar (s : lstate) (anchor tag : option (list N)) (value : list N) (style : sstyle) (m : mark) : lstep :=
  load_new s (mkNode (choose_tag tag default_scalar_tag) (NScalar value style)) anchor m.
(* loader.c:414-459 yaml_parser_load_sequence *)
Definition load_sequence (s : lstate) (anchor tag : option (list N)) (style : cstyle) (m : mark) : lstep :=
  lbind (load_new s (mkNode (choose_tag tag default_sequence_tag) (NSequence [] style)) anchor m)
        (fun s' => LNext (push_ctx s' (S (length (l_nodes s))))).
(* loader.c:482-527 yaml_parser_load_mapping *)
Definition load_mapping (s : lstate) (anchor tag : option (list N)) (style : cstyle) (m : mark) : lstep :=
  lbind (load_new s (mkNode (choose_tag tag default_mapping_tag) (NMapping [] style)) anchor m)
        (fun s' => LNext (push_ctx s' (S (length (l_nodes s))))).
(* loader.c:461-477, 529-544: the assertions of the end functions *)
Definition load_end (s : lstate) (is_mapping : bool) : lstep :=
  match l_ctx s with
  | [] => LAssertion
  | index :: ctx =>
      match node_ref (l_nodes s) index with
      | None => LUndefined
      | Some n =>
          match n_data n, is_mapping with
          | NSequence _ _, false | NMapping _ _, true => LNext (mkLstate (l_nodes s) (l_aliases s) ctx)
          | _, _ => LAssertion
          end
      end
  end.

(* loader.c:223-250: one event inside a document (DOCUMENT-END is handled by the loop) *)
Definition load_event (s : lstate) (e : event) : lstep :=
  match e_ev e with
  | EAlias name => load_alias s name (e_start e)
  | EScalar anchor tag value _ _ style => load_scalar s anchor tag value style (e_start e)
  | ESeqStart anchor tag _ style => load_sequence s anchor tag style (e_start e)
  | ESeqEnd => load_end s false
  | EMapStart anchor tag _ style => load_mapping s anchor tag style (e_start e)
  | EMapEnd => load_end s true
  | _ => LAssertion
  end.

(* The loader's state between calls: the parser, and stream_start_produced,
   which the scanner sets when it delivers its first token. *)
Record loader := mkLoader { ld_parser : parser; ld_started : bool }.

(* Outcome of yaml_parser_load: return 1 with a document, return 1 with an empty
   document (no nodes: end of stream), return 0. *)
Inductive lout :=
| LDocument (d : document) (l : loader)
| LNoDocument (l : loader)
| LFailed (l : loader)
| LAssertFail
| LUB
| LOutOfFuel.

Definition set_error (p : parser) (e : perr) : parser :=
  mkParser (p_in p) (p_end p) (Some e) (p_state p) (p_states p) (p_marks p) (p_tags p).

(* loader.c:216-257 yaml_parser_load_nodes *)
Fixpoint load_nodes (fuel : nat) (p : parser) (s : lstate) (k : parser -> lstate -> bool -> lout) : lout :=
  match fuel with
  | O => LOutOfFuel
  | S f =>
      match parse p with
      | PFail p' => LFailed (mkLoader p' true)
      | PNothing _ => LAssertFail             (* event.type is YAML_NO_EVENT: default: assert(0) *)
      | PUB => LUB
      | PEvent e p' =>
          match e_ev e with
          | EDocEnd implicit => k p' s implicit
          | _ => match load_event s e with
                 | LNext s' => load_nodes f p' s' k
                 | LError err => LFailed (mkLoader (set_error p' err) true)
                 | LAssertion => LAssertFail
                 | LUndefined => LUB
                 end
          end
      end
  end.

(* loader.c:184-209 yaml_parser_load_document; parser->aliases is empty (107) *)
Definition load_document (fuel : nat) (p : parser) (e : event) : lout :=
  match e_ev e with
  | EDocStart version tags implicit =>
      load_nodes fuel p (mkLstate [] [] []) (fun p' s end_implicit =>
        LDocument (mkDoc (l_nodes s) version tags implicit end_implicit) (mkLoader p' true))
  | _ => LAssertFail                          (* assert(event->type == YAML_DOCUMENT_START_EVENT) *)
  end.

(* loader.c:101-131, after STREAM-START *)
Definition load_next (fuel : nat) (p : parser) : lout :=
  if p_end p then LNoDocument (mkLoader p true)
  else
    match parse p with
    | PFail p' => LFailed (mkLoader p' true)
    | PUB => LUB
    | PNothing _ => LAssertFail               (* YAML_NO_EVENT is not DOCUMENT-START *)
    | PEvent e p' =>
        match e_ev e with
        | EStreamEnd => LNoDocument (mkLoader p' true)
        | _ => load_document fuel p' e
        end
    end.

(* loader.c:86-132 yaml_parser_load *)
Definition has_token (p : parser) : bool := match p_in p with [] => false | _ => true end.
Definition load (fuel : nat) (l : loader) : lout :=
  let p := ld_parser l in
  if ld_started l then load_next fuel p
  else
    match parse p with
    | PFail p' => LFailed (mkLoader p' (has_token p))
    | PUB => LUB
    | PNothing _ => LAssertFail               (* assert(event.type == YAML_STREAM_START_EVENT) *)
    | PEvent e p' =>
        match e_ev e with
        | EStreamStart _ => load_next fuel p'
        | _ => LAssertFail
        end
    end.

Definition init_loader (input : list token) : loader := mkLoader (init_parser input) false.
