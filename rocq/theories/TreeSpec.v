(* Specification: well-formed event streams, as serialised trees.  Used by the
   parser, loader, dumper and emitter properties; refers to no model code. *)
From Verif Require Import Base ReaderModel Types.

(* A node of the serialisation tree with its presentation details. *)
Inductive tree :=
| Alias (name : list N)
| Scalar (anchor tag : option (list N)) (value : list N) (plain_implicit quoted_implicit : bool) (style : sstyle)
| Sequence (anchor tag : option (list N)) (implicit : bool) (style : cstyle) (items : list tree)
| Mapping (anchor tag : option (list N)) (implicit : bool) (style : cstyle) (pairs : list (tree * tree)).

(* The events of a tree: a sequence or mapping is bracketed by its start and end
   events; a mapping has its keys and values alternating. *)
Fixpoint events_of (t : tree) : list ev :=
  match t with
  | Alias a => [EAlias a]
  | Scalar a t v pi qi s => [EScalar a t v pi qi s]
  | Sequence a t i s items => ESeqStart a t i s :: flat_map events_of items ++ [ESeqEnd]
  | Mapping a t i s pairs =>
      EMapStart a t i s :: flat_map (fun '(k, v) => events_of k ++ events_of v) pairs ++ [EMapEnd]
  end.
Definition items_events (l : list tree) : list ev := flat_map events_of l.
Definition pairs_events (l : list (tree * tree)) : list ev :=
  flat_map (fun '(k, v) => events_of k ++ events_of v) l.

(* A document: its directives, whether its start and end are implicit, its root. *)
Record doc_tree := mkDocTree {
  dt_version : option version;
  dt_tags : list tagdir;
  dt_start_implicit : bool;
  dt_root : tree;
  dt_end_implicit : bool }.
Definition doc_events (d : doc_tree) : list ev :=
  EDocStart (dt_version d) (dt_tags d) (dt_start_implicit d) :: events_of (dt_root d) ++ [EDocEnd (dt_end_implicit d)].
Record stream_tree := mkStreamTree { st_encoding : encoding; st_docs : list doc_tree }.
Definition stream_events (s : stream_tree) : list ev :=
  EStreamStart (st_encoding s) :: flat_map doc_events (st_docs s) ++ [EStreamEnd].

(* A complete well-formed event stream, and a prefix of one. *)
Definition well_formed (es : list ev) : Prop := exists s, es = stream_events s.
Definition well_formed_prefix (es : list ev) : Prop := exists rest, well_formed (es ++ rest).

(* Induction over trees through the nested lists. *)
Section tree_induction.
  Variable P : tree -> Prop.
  Hypothesis HA : forall a, P (Alias a).
  Hypothesis HS : forall a t v pi qi s, P (Scalar a t v pi qi s).
  Hypothesis HQ : forall a t i s items, Forall P items -> P (Sequence a t i s items).
  Hypothesis HM : forall a t i s pairs, Forall (fun kv => P (fst kv) /\ P (snd kv)) pairs -> P (Mapping a t i s pairs).
  Fixpoint tree_induction (t : tree) : P t :=
    match t with
    | Alias a => HA a
    | Scalar a t v pi qi s => HS a t v pi qi s
    | Sequence a t i s items =>
        HQ a t i s items ((fix go l : Forall P l :=
          match l with [] => Forall_nil _ | x :: r => Forall_cons _ (tree_induction x) (go r) end) items)
    | Mapping a t i s pairs =>
        HM a t i s pairs ((fix go l : Forall (fun kv => P (fst kv) /\ P (snd kv)) l :=
          match l with
          | [] => Forall_nil _
          | kv :: r => Forall_cons kv (conj (tree_induction (fst kv)) (tree_induction (snd kv))) (go r)
          end) pairs)
    end.
End tree_induction.
